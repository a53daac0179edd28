(** Proofs about the threaded evolution: invariant, progress, bound on the number of steps. *)
From Coq Require Import List Arith Bool Lia Permutation.
From Verif Require Import Err PoolModel PoolProofs AtmParModel.
Import ListNotations.

(** The pool with the results in the futures forgotten. *)
Definition erase {R} (p : pstate R) : pstate unit :=
  PState (workers p) (tasks p) (stop p) (dtor p) (notifies p) (accepted p) (started p)
         (map (fun e => (fst e, Ok tt)) (futures p)).
Definition unit_body (_ : nat) : outcome unit := Ok tt.

Lemma erase_step {R} (b : nat -> outcome R) p a p' : pstep b p a = Some (Ok p') ->
  pstep unit_body (erase p) a = Some (Ok (erase p')).
Proof.
  destruct p as [W T S D Nf Ac St F]. destruct a as [|i| | | | |i|i|i]; cbn; intro H.
  - destruct D, S; try discriminate; injection H as <-; reflexivity.
  - destruct Nf; [discriminate|]. destruct (nth_error W i) as [[]|]; try discriminate. injection H as <-. reflexivity.
  - destruct Nf; [discriminate|]. destruct (existsb is_wait W); [discriminate|]. injection H as <-. reflexivity.
  - destruct D; try discriminate; injection H as <-; reflexivity.
  - destruct D; try discriminate; injection H as <-; reflexivity.
  - destruct D; try discriminate. destruct (nth_error W k) as [[]|]; try discriminate; injection H as <-; reflexivity.
  - destruct (nth_error W i) as [[]|]; try discriminate. destruct T; injection H as <-; reflexivity.
  - destruct (nth_error W i) as [[]|]; try discriminate. injection H as <-. unfold erase. cbn. rewrite map_app. reflexivity.
  - destruct (nth_error W i) as [[]|]; try discriminate. injection H as <-. reflexivity.
Qed.

Lemma erase_enabled {R} (b : nat -> outcome R) p a q : pstep unit_body (erase p) a = Some (Ok q) ->
  exists p', pstep b p a = Some (Ok p').
Proof.
  destruct p as [W T S D Nf Ac St F]. destruct a as [|i| | | | |i|i|i]; cbn; intro H.
  - destruct D, S; try discriminate; eexists; reflexivity.
  - destruct Nf; [discriminate|]. destruct (nth_error W i) as [[]|]; try discriminate. eexists; reflexivity.
  - destruct Nf; [discriminate|]. destruct (existsb is_wait W); [discriminate|]. eexists; reflexivity.
  - destruct D; try discriminate; eexists; reflexivity.
  - destruct D; try discriminate; eexists; reflexivity.
  - destruct D; try discriminate. destruct (nth_error W k) as [[]|]; try discriminate; eexists; reflexivity.
  - destruct (nth_error W i) as [[]|]; try discriminate. destruct T; eexists; reflexivity.
  - destruct (nth_error W i) as [[]|]; try discriminate. eexists; reflexivity.
  - destruct (nth_error W i) as [[]|]; try discriminate. eexists; reflexivity.
Qed.

Lemma running_in l : forall i t, nth_error l i = Some (WRun t) -> In t (running l).
Proof.
  induction l as [|x l IH]; intros [|i] t H; cbn in H; try discriminate.
  - injection H as ->. left. reflexivity.
  - specialize (IH _ _ H). destruct x; cbn; auto.
Qed.
Lemma running_none l : (forall i t, nth_error l i <> Some (WRun t)) -> running l = [].
Proof.
  induction l as [|x l IH]; intro H; [reflexivity|].
  destruct x; cbn; try (apply IH; intros i; exact (H (S i))). exfalso. exact (H 0 t eq_refl).
Qed.

Section Par.
Context {N R : Type}.
Variable lstep : nat -> N -> option N.
Variable out : N -> outcome R.
Variable n : nat.
Notation xs := (xstate N R).
Notation step := (xstep lstep out n).

(** [k] steps of task [t] alone *)
Inductive lsteps (t : nat) : nat -> N -> N -> Prop :=
| ls_0 c : lsteps t 0 c c
| ls_S k c c1 c2 : lsteps t k c c1 -> lstep t c1 = Some c2 -> lsteps t (S k) c c2.

Lemma lsteps_front t k c c1 c2 : lstep t c = Some c1 -> lsteps t k c1 c2 -> lsteps t (S k) c c2.
Proof. intros H. induction 1; econstructor; eauto; constructor. Qed.
Lemma lsteps_runs t k c c' : lsteps t k c c' -> forall j v, runs lstep t j c' v -> runs lstep t (k + j) c v.
Proof.
  induction 1 as [|k c c1 c2 H IH E]; intros j v Rn; [exact Rn|].
  replace (S k + j) with (k + S j) by lia. apply IH. econstructor; eauto.
Qed.
Lemma runs_det t k c v : runs lstep t k c v -> forall k' v', runs lstep t k' c v' -> k = k' /\ v = v'.
Proof.
  induction 1 as [c E|k c c1 v E Rn IH]; intros k' v' H'; inversion H'; subst; try congruence; auto.
  rewrite E in H. injection H as <-. destruct (IH _ _ H0). subst. auto.
Qed.
Lemma lsteps_le t k c c' : lsteps t k c c' -> forall K v, runs lstep t K c v ->
  exists j, K = k + j /\ runs lstep t j c' v.
Proof.
  induction 1 as [|k c c1 c2 H IH E]; intros K v Rn; [exists K; auto|].
  destruct (IH K v Rn) as (j & -> & Rj). inversion Rj; subst; [congruence|].
  rewrite E in H0. injection H0 as <-. exists k0. split; [lia|assumption].
Qed.

Definition main_ok (s : xs) : Prop :=
  match x_main s with
  | MEnq k => k <= n /\ accepted (x_pool s) = k /\ dtor (x_pool s) = DNone
  | MWait k => k <= n /\ accepted (x_pool s) = n /\ dtor (x_pool s) = DNone
  | MDtor => accepted (x_pool s) = n /\ dtor (x_pool s) <> DNone
  end.

Record xinv (w : nat) (c : nat -> N) (s : xs) : Prop := {
  xi_pool : reach unit_body w (erase (x_pool s));
  xi_main : main_ok s;
  xi_cell : forall t, exists k, lsteps t k (c t) (x_cells s t);
  xi_idle : forall t, ~ In t (started (x_pool s)) -> x_cells s t = c t;
  xi_done : forall t, In t (map fst (futures (x_pool s))) -> lstep t (x_cells s t) = None;
  xi_res : forall t r, In (t, r) (futures (x_pool s)) -> r = out (x_cells s t) }.

Lemma pool_step_inv s a m s' : pool_step out s a m = Some s' ->
  x_cells s' = x_cells s /\ x_main s' = m /\
  pstep (fun t => out (x_cells s t)) (x_pool s) a = Some (Ok (x_pool s')).
Proof.
  unfold pool_step. destruct (pstep _ _ _) as [[p| |]|]; try discriminate. intro H. injection H as <-. auto.
Qed.

Lemma pstep_started {A} (b : nat -> outcome A) p a p' t : pstep b p a = Some (Ok p') ->
  ~ In t (started p') -> ~ In t (started p).
Proof.
  destruct p as [W T S D Nf Ac St F]. destruct a as [|i| | | | |i|i|i]; cbn; intros H.
  - destruct D, S; try discriminate; injection H as <-; auto.
  - destruct Nf; [discriminate|]. destruct (nth_error W i) as [[]|]; try discriminate. injection H as <-. auto.
  - destruct Nf; [discriminate|]. destruct (existsb is_wait W); [discriminate|]. injection H as <-. auto.
  - destruct D; try discriminate; injection H as <-; auto.
  - destruct D; try discriminate; injection H as <-; auto.
  - destruct D; try discriminate. destruct (nth_error W k) as [[]|]; try discriminate; injection H as <-; auto.
  - destruct (nth_error W i) as [[]|]; try discriminate. destruct T; injection H as <-; cbn; auto.
    intros X Y. apply X, in_or_app. auto.
  - destruct (nth_error W i) as [[]|]; try discriminate. injection H as <-. auto.
  - destruct (nth_error W i) as [[]|]; try discriminate. injection H as <-. auto.
Qed.

(** a step of the pool leaves the futures alone or completes a task *)
Lemma pstep_futures {A} (b : nat -> outcome A) p a p' : pstep b p a = Some (Ok p') ->
  futures p' = futures p \/
  exists i t, a = AFinish i /\ nth_error (workers p) i = Some (WRun t) /\ futures p' = futures p ++ [(t, b t)].
Proof.
  destruct p as [W T S D Nf Ac St F]. destruct a as [|i| | | | |i|i|i]; cbn; intros H.
  - destruct D, S; try discriminate; injection H as <-; auto.
  - destruct Nf; [discriminate|]. destruct (nth_error W i) as [[]|]; try discriminate. injection H as <-. auto.
  - destruct Nf; [discriminate|]. destruct (existsb is_wait W); [discriminate|]. injection H as <-. auto.
  - destruct D; try discriminate; injection H as <-; auto.
  - destruct D; try discriminate; injection H as <-; auto.
  - destruct D; try discriminate. destruct (nth_error W k) as [[]|]; try discriminate; injection H as <-; auto.
  - destruct (nth_error W i) as [[]|]; try discriminate. destruct T; injection H as <-; auto.
  - destruct (nth_error W i) as [[]|] eqn:E; try discriminate. injection H as <-. right. exists i, t. auto.
  - destruct (nth_error W i) as [[]|]; try discriminate. injection H as <-. auto.
Qed.

(** steps that are not calls keep what the main thread relies on *)
Lemma pstep_quiet {A} (b : nat -> outcome A) p a p' : pstep b p a = Some (Ok p') -> own_act a = true ->
  accepted p' = accepted p /\ (dtor p' = DNone <-> dtor p = DNone).
Proof.
  destruct p as [W T S D Nf Ac St F]. destruct a as [|i| | | | |i|i|i]; cbn; intros H O; try discriminate O.
  - destruct Nf; [discriminate|]. destruct (nth_error W i) as [[]|]; try discriminate. injection H as <-. cbn. tauto.
  - destruct Nf; [discriminate|]. destruct (existsb is_wait W); [discriminate|]. injection H as <-. cbn. tauto.
  - destruct D; try discriminate; injection H as <-; cbn; split; auto; split; discriminate.
  - destruct D; try discriminate. destruct (nth_error W k) as [[]|]; try discriminate; injection H as <-; cbn; split; auto; split; discriminate.
  - destruct (nth_error W i) as [[]|]; try discriminate. destruct T; injection H as <-; cbn; tauto.
  - destruct (nth_error W i) as [[]|]; try discriminate. injection H as <-. cbn. tauto.
  - destruct (nth_error W i) as [[]|]; try discriminate. injection H as <-. cbn. tauto.
Qed.

Lemma xinv_pool w c s a m s' : xinv w c s -> pool_step out s a m = Some s' ->
  may_finish lstep s a = true -> main_ok s' -> xinv w c s'.
Proof.
  intros [P M C I D F] H Fi Mo. destruct (pool_step_inv _ _ _ _ H) as (Ec & _ & Hp).
  pose proof (reach_ok unit_body w _ _ _ P (erase_step _ _ _ _ Hp)) as P'.
  constructor; auto; rewrite ?Ec; auto.
  - intros t Ht. apply I. exact (pstep_started _ _ _ _ _ Hp Ht).
  - intros t Ht. destruct (pstep_futures _ _ _ _ Hp) as [E|(i & u & -> & Ei & E)]; rewrite E in Ht; [auto|].
    rewrite map_app, in_app_iff in Ht. destruct Ht as [Ht|[<-|[]]]; [auto|].
    cbn in Fi |- *. rewrite Ei in Fi. destruct (lstep u (x_cells s u)); [discriminate|reflexivity].
  - intros t r Ht. destruct (pstep_futures _ _ _ _ Hp) as [E|(i & u & -> & Ei & E)]; rewrite E in Ht; [auto|].
    apply in_app_iff in Ht. destruct Ht as [Ht|[Ht|[]]]; [auto|]. injection Ht as <- <-. reflexivity.
Qed.

Lemma xinv_step w c s a s' : xinv w c s -> step s a = Some s' -> xinv w c s'.
Proof.
  intros I H. destruct a as [a|i| | |]; cbn [xstep] in H.
  - destruct (own_act a) eqn:O; cbn in H; [|discriminate]. destruct (may_finish lstep s a) eqn:Fi; [|discriminate].
    apply (xinv_pool w c s a (x_main s) s' I H Fi).
    destruct (pool_step_inv _ _ _ _ H) as (_ & Em & Hp). destruct (pstep_quiet _ _ _ _ Hp O) as [Ea Ed].
    pose proof (xi_main _ _ _ I) as M. unfold main_ok in *. rewrite Em, Ea. destruct (x_main s); tauto.
  - destruct (nth_error (workers (x_pool s)) i) as [[| |t|]|] eqn:Ei; try discriminate.
    destruct (lstep t (x_cells s t)) as [v|] eqn:El; [|discriminate]. injection H as <-.
    destruct I as [P M C I D F].
    assert (Nt : ~ In t (map fst (futures (x_pool s)))) by (intro X; rewrite (D t X) in El; discriminate).
    constructor; cbn; auto; unfold upd.
    + intro u. destruct (Nat.eqb_spec u t) as [->|_]; [|apply C]. destruct (C t) as [k Hk]. exists (S k). econstructor; eauto.
    + intros u Hu. destruct (Nat.eqb_spec u t) as [->|_]; [|auto]. exfalso. apply Hu.
      pose proof (i_done _ _ _ (reach_inv _ _ _ P)) as Q. cbn in Q.
      eapply Permutation_in; [exact Q|]. apply in_or_app. right. eapply running_in. exact Ei.
    + intros u Hu. destruct (Nat.eqb_spec u t) as [->|_]; [contradiction|auto].
    + intros u r Hu. destruct (Nat.eqb_spec u t) as [->|_]; [|auto]. exfalso. apply Nt. apply in_map_iff. exists (t, r). auto.
  - destruct (x_main s) as [k| |] eqn:Em; try discriminate. destruct (Nat.ltb_spec k n) as [Hk|]; [|discriminate].
    apply (xinv_pool w c s AEnqueue (MEnq (S k)) s' I H eq_refl).
    destruct (pool_step_inv _ _ _ _ H) as (_ & Em' & Hp). pose proof (xi_main _ _ _ I) as M. unfold main_ok in *.
    rewrite Em in M. rewrite Em'. destruct M as (_ & Ea & Ed). cbn in Hp. rewrite Ed in Hp.
    destruct (stop (x_pool s)); [discriminate|]. injection Hp as <-. cbn. repeat split; try lia.
  - destruct I as [P M C I D F]. unfold main_ok in M. destruct (x_main s) as [k|k|] eqn:Em; try discriminate.
    + destruct (Nat.ltb_spec k n); [discriminate|]. injection H as <-. constructor; auto. unfold main_ok. cbn.
      destruct M as (? & ? & ?). repeat split; auto; lia.
    + destruct (Nat.ltb_spec k n); [|discriminate]. destruct (ready _ _); [|discriminate]. injection H as <-.
      constructor; auto. unfold main_ok. cbn. destruct M as (? & ? & ?). repeat split; auto.
  - destruct (x_main s) as [|k|] eqn:Em; try discriminate. destruct (Nat.ltb_spec k n) as [|Hk]; [discriminate|].
    apply (xinv_pool w c s ADestroy MDtor s' I H eq_refl).
    destruct (pool_step_inv _ _ _ _ H) as (_ & Em' & Hp). pose proof (xi_main _ _ _ I) as M. unfold main_ok in *.
    rewrite Em in M. rewrite Em'. destruct M as (_ & Ea & Ed). cbn in Hp. rewrite Ed in Hp.
    injection Hp as <-. cbn. split; [assumption|discriminate].
Qed.

Lemma xinv_reach w c s : xreach lstep out n w c s -> xinv w c s.
Proof.
  induction 1 as [|s a s' _ IH H]; [|eapply xinv_step; eauto].
  constructor; cbn; try tauto.
  - constructor.
  - unfold main_ok. cbn. repeat split; lia.
  - intro t. exists 0. constructor.
Qed.

(** ** The result *)

Lemma returned_done w c s : xreach lstep out n w c s -> 0 < w -> returned s ->
  (forall t, t < n -> exists k, runs lstep t k (c t) (x_cells s t)) /\
  (forall t, n <= t -> x_cells s t = c t) /\
  (forall t, t < n -> In (t, out (x_cells s t)) (futures (x_pool s))) /\
  NoDup (map fst (futures (x_pool s))).
Proof.
  intros Re W Rt. pose proof (xinv_reach w c s Re) as [P M C I D F]. unfold returned in Rt.
  assert (A : accepted (x_pool s) = n).
  { unfold main_ok in M. rewrite Rt in M. destruct (x_main s); destruct M as (? & M); try (destruct M; congruence). assumption. }
  destruct (all_run unit_body w _ P W Rt) as (Hs & Hf & Hn). cbn in Hs, Hf, Hn. rewrite map_map in Hn. cbn in Hn.
  rewrite A in *.
  assert (Hin : forall t, t < n -> exists r, In (t, r) (futures (x_pool s))).
  { intros t Ht. specialize (Hf t Ht). apply in_map_iff in Hf. destruct Hf as ([u r] & E & Hin). cbn in E.
    injection E as ->. eauto. }
  split; [|split; [|split]].
  - intros t Ht. destruct (C t) as [k Hk]. destruct (Hin t Ht) as [r Hr]. exists (k + 0).
    eapply lsteps_runs; [exact Hk|]. constructor. apply D. apply in_map_iff. exists (t, r). auto.
  - intros t Ht. apply I. rewrite Hs, in_seq. lia.
  - intros t Ht. destruct (Hin t Ht) as [r Hr]. rewrite <- (F t r Hr). exact Hr.
  - exact Hn.
Qed.

Lemma serial_cells m c c' : serial lstep m c c' ->
  (forall t, t < m -> exists k, runs lstep t k (c t) (c' t)) /\ (forall t, m <= t -> c' t = c t).
Proof.
  induction 1 as [c|m c c1 k v S [IH1 IH2] Rn]; [split; [lia|reflexivity]|]. unfold upd. split.
  - intros t Ht. destruct (Nat.eqb_spec t m) as [->|]; [|apply IH1; lia]. rewrite IH2 in Rn by lia. eauto.
  - intros t Ht. destruct (Nat.eqb_spec t m) as [->|]; [lia|]. apply IH2. lia.
Qed.

Lemma serial_exists m c v : (forall t, t < m -> exists k, runs lstep t k (c t) (v t)) ->
  exists c', serial lstep m c c' /\ (forall t, t < m -> c' t = v t).
Proof.
  induction m as [|m IH]; intro H; [exists c; split; [constructor|lia]|].
  destruct (IH ltac:(intros; apply H; lia)) as (c1 & S & E). destruct (H m ltac:(lia)) as [k Rn].
  destruct (serial_cells _ _ _ S) as [_ E2]. exists (upd c1 m (v m)). split.
  - econstructor; [exact S|]. rewrite (E2 m) by lia. exact Rn.
  - intros t Ht. unfold upd. destruct (Nat.eqb_spec t m) as [->|]; [reflexivity|]. apply E. lia.
Qed.

(** ** Progress *)

Definition spurious (a : xact) : bool := match a with XPool (ASpurious _) => true | _ => false end.

Lemma pool_step_ok s a m : (exists p, pstep (fun t => out (x_cells s t)) (x_pool s) a = Some (Ok p)) ->
  exists s', pool_step out s a m = Some s'.
Proof. intros [p H]. unfold pool_step. rewrite H. eauto. Qed.

Lemma worker_steps (s : xs) i t : nth_error (workers (x_pool s)) i = Some (WRun t) ->
  exists a s', spurious a = false /\ step s a = Some s'.
Proof.
  intro E. destruct (lstep t (x_cells s t)) as [v|] eqn:El.
  - exists (XTask i). eexists. split; [reflexivity|]. cbn. rewrite E, El. reflexivity.
  - exists (XPool (AFinish i)). cbn [xstep]. cbn [own_act may_finish]. rewrite E, El. cbn [andb].
    destruct (pool_step_ok s (AFinish i) (x_main s)) as [s' H]; [cbn; rewrite E; eauto|].
    exists s'. split; [reflexivity|exact H].
Qed.

Lemma pool_steps (s : xs) a : own_act a = true -> (forall i, a <> ASpurious i) -> (forall i, a <> AFinish i) ->
  (exists q, pstep unit_body (erase (x_pool s)) a = Some (Ok q)) ->
  exists a s', spurious a = false /\ step s a = Some s'.
Proof.
  intros O S F [q H]. destruct (erase_enabled (fun t => out (x_cells s t)) _ _ _ H) as [p Hp].
  exists (XPool a). cbn [xstep]. rewrite O.
  assert (M : may_finish lstep s a = true) by (destruct a; try reflexivity; exfalso; eapply F; reflexivity).
  rewrite M. cbn [andb]. destruct (pool_step_ok s a (x_main s) ltac:(eauto)) as [s' H']. exists s'.
  split; [|exact H']. destruct a; try reflexivity. exfalso. eapply S. reflexivity.
Qed.

Lemma dec_returned (p : pstate R) : dtor p = DReturned \/ dtor p <> DReturned.
Proof. destruct (dtor p); auto; right; discriminate. Qed.

Lemma progress w c s : xreach lstep out n w c s -> 0 < w -> ~ returned s ->
  exists a s', spurious a = false /\ step s a = Some s'.
Proof.
  intros Re W Nr. pose proof (xinv_reach w c s Re) as [P M C I D F]. pose proof (reach_inv _ _ _ P) as V.
  unfold main_ok in M. destruct (x_main s) as [k|k|] eqn:Em.
  - destruct M as (Hk & Ea & Ed).
    assert (St : stop (x_pool s) = false).
    { destruct (stop (x_pool s)) eqn:E; [|reflexivity]. destruct (i_stop _ _ _ V) as [X _]. cbn in X. exfalso. now apply X. }
    destruct (Nat.ltb k n) eqn:El.
    + exists XEnq. cbn [xstep]. rewrite Em, El.
      destruct (pool_step_ok s AEnqueue (MEnq (S k))) as [s' H]; [cbn; rewrite Ed, St; eauto|]. exists s'. split; [reflexivity|exact H].
    + exists XWait. cbn [xstep]. rewrite Em, El. eexists. split; reflexivity.
  - destruct M as (Hk & Ea & Ed).
    assert (St : stop (x_pool s) = false).
    { destruct (stop (x_pool s)) eqn:E; [|reflexivity]. destruct (i_stop _ _ _ V) as [X _]. cbn in X. exfalso. now apply X. }
    destruct (Nat.ltb k n) eqn:El.
    2:{ exists XDtor. cbn [xstep]. rewrite Em, El.
        destruct (pool_step_ok s ADestroy MDtor) as [s' H]; [cbn; rewrite Ed; eauto|]. exists s'. split; [reflexivity|exact H]. }
    destruct (ready (x_pool s) k) eqn:Er; [exists XWait; cbn [xstep]; rewrite Em, El, Er; eexists; split; reflexivity|].
    destruct (existsb (fun x => match x with WRun _ => true | _ => false end) (workers (x_pool s))) eqn:Ex.
    + apply existsb_exists in Ex. destruct Ex as (x & Hx & Ex). destruct x; try discriminate.
      apply In_nth_error in Hx. destruct Hx as [i Hi]. eapply worker_steps. exact Hi.
    + assert (Nrun : running (workers (x_pool s)) = []).
      { apply running_none. intros i t Hi. apply nth_error_In in Hi.
        assert (X : existsb (fun x => match x with WRun _ => true | _ => false end) (workers (x_pool s)) = true)
          by (apply existsb_exists; exists (WRun t); auto). congruence. }
      assert (Ht : tasks (x_pool s) <> []).
      { intro E. apply Nat.ltb_lt in El. pose proof (i_order _ _ _ V) as O. pose proof (i_done _ _ _ V) as Q. cbn in O, Q.
        rewrite E, app_nil_r, Ea in O. rewrite Nrun, app_nil_r, O, map_map in Q. cbn in Q.
        assert (X : In k (map fst (futures (x_pool s)))).
        { eapply Permutation_in; [symmetry; exact Q|]. apply in_seq. lia. }
        apply in_map_iff in X. destruct X as ([u r] & Eu & Hu). cbn in Eu. subst u. unfold ready in Er.
        assert (Y : existsb (fun e => fst e =? k) (futures (x_pool s)) = true)
          by (apply existsb_exists; exists (k, r); split; [exact Hu|apply Nat.eqb_refl]). congruence. }
      assert (Go : forall i, nth_error (workers (x_pool s)) i = Some WCheck -> exists a s', spurious a = false /\ step s a = Some s').
      { intros i Hi. apply (pool_steps s (AWork i)); try discriminate; [reflexivity|]. cbn. rewrite Hi.
        destruct (tasks (x_pool s)); eauto. }
      pose proof (i_len _ _ _ V) as Ln. cbn in Ln.
      destruct (nth_error (workers (x_pool s)) 0) as [[| |t|]|] eqn:E0.
      * eapply Go. exact E0.
      * pose proof (no_lost_wakeup unit_body w _ 0 P E0) as L. cbn in L.
        destruct (notifies (x_pool s)) as [|m] eqn:En.
        -- destruct (checking_pos (workers (x_pool s))) as [i Hi]; [destruct (tasks (x_pool s)); [congruence|cbn in L; lia]|].
           eapply Go. exact Hi.
        -- apply (pool_steps s (ANotifyOne 0)); try discriminate; [reflexivity|]. cbn [pstep erase notifies workers]. rewrite En, E0. eauto.
      * eapply worker_steps. exact E0.
      * destruct (i_exit _ _ _ V 0 E0) as [X _]. cbn in X. congruence.
      * apply nth_error_None in E0. lia.
  - destruct M as (Ea & Ed).
    assert (St : stop (erase (x_pool s)) = true) by (apply (i_stop _ _ _ V); exact Ed).
    destruct (internal_enabled unit_body w _ P St Nr) as (a & q & Ia & Hq).
    destruct a as [|i| | | | |i|i|i]; try discriminate Ia;
      try (eapply pool_steps; [| | |eexists; exact Hq]; [reflexivity|discriminate|discriminate]).
    cbn in Hq. destruct (nth_error (workers (x_pool s)) i) as [[]|] eqn:Ei; try discriminate. eapply worker_steps. exact Ei.
Qed.

(** ** Every run ends *)

Definition wt (x : wst) : nat := match x with WExit => 0 | WWait => 1 | WCheck => 2 | WRun _ => 3 end.
Definition pool_left (w : nat) (p : pstate R) : nat :=
  2 * length (tasks p) + wsum wt (workers p) + 2 * notifies p +
  match dtor p with DNone => 2 * w + 3 | DStopSet => 2 * w + 2 | DJoin k => w + 1 - k | DReturned => 0 end.
Definition main_left (m : mainpc) : nat :=
  match m with MEnq k => 5 * (n - k) + n + 2 | MWait k => n - k + 1 | MDtor => 0 end.
Fixpoint total (K : nat -> nat) (m : nat) : nat := match m with 0 => 0 | S m' => total K m' + K m' end.

Lemma total_upd K t v m : t < m -> total (upd K t v) m + K t = total K m + v.
Proof.
  assert (O : forall j, j <= t -> total (upd K t v) j = total K j).
  { induction j as [|j IH]; intro H; [reflexivity|]. cbn. rewrite IH by lia. unfold upd at 1.
    destruct (Nat.eqb_spec j t); [lia|reflexivity]. }
  induction m as [|m IH]; intro H; [lia|]. cbn. unfold upd at 2. destruct (Nat.eqb_spec m t) as [->|].
  - rewrite O by lia. lia.
  - assert (t < m) by lia. specialize (IH ltac:(lia)). lia.
Qed.

Lemma wsum_wake_wt l : wsum wt (map wake l) <= wsum wt l + length l.
Proof. induction l as [|[] l IH]; cbn [map wsum wake wt length]; lia. Qed.

Lemma pool_left_step w c s a m s' : xinv w c s -> pool_step out s a m = Some s' -> own_act a = true ->
  pool_left w (x_pool s') < pool_left w (x_pool s) \/
  (exists i, a = ASpurious i) /\ pool_left w (x_pool s') = S (pool_left w (x_pool s)).
Proof.
  intros [P _ _ _ _ _] H O. destruct (pool_step_inv _ _ _ _ H) as (_ & _ & Hp).
  pose proof (reach_inv _ _ _ P) as V. pose proof (i_len _ _ _ V) as Ln. pose proof (i_join _ _ _ V) as J. cbn in Ln, J.
  unfold pool_left. destruct (x_pool s) as [W T S D Nf Ac St F]. cbn in Ln, J.
  destruct a as [|i| | | | |i|i|i]; cbn [pstep own_act workers tasks stop dtor notifies] in Hp, O; try discriminate O.
  - destruct Nf; [discriminate|]. destruct (nth_error W i) as [[]|] eqn:E; try discriminate. injection Hp as <-. left. cbn.
    pose proof (wsum_setw wt W i WWait WCheck E) as X. cbn [wt] in X. lia.
  - destruct Nf; [discriminate|]. destruct (existsb is_wait W); [discriminate|]. injection Hp as <-. left. cbn. lia.
  - destruct D; try discriminate. injection Hp as <-. left. cbn. pose proof (wsum_wake_wt W). lia.
  - destruct D; try discriminate. destruct (J k eq_refl) as [Hk _].
    destruct (nth_error W k) as [[]|] eqn:E; try discriminate; injection Hp as <-; left; cbn; [|lia].
    assert (k < length W) by (apply nth_error_Some; congruence). lia.
  - destruct (nth_error W i) as [[]|] eqn:E; try discriminate. destruct T; injection Hp as <-; left; cbn.
    + pose proof (wsum_setw wt W i WCheck (if S then WExit else WWait) E) as X. destruct S; cbn [wt] in X; lia.
    + pose proof (wsum_setw wt W i WCheck (WRun n0) E) as X. cbn [wt] in X. lia.
  - destruct (nth_error W i) as [[]|] eqn:E; try discriminate. injection Hp as <-. left. cbn.
    pose proof (wsum_setw wt W i (WRun t) WCheck E) as X. cbn [wt] in X. lia.
  - destruct (nth_error W i) as [[]|] eqn:E; try discriminate. injection Hp as <-. right. split; [eauto|]. cbn.
    pose proof (wsum_setw wt W i WWait WCheck E) as X. cbn [wt] in X. lia.
Qed.

(** [k] ordinary steps and [j] spurious wakeups *)
Inductive xrun : xs -> nat -> nat -> xs -> Prop :=
| xrun_0 s : xrun s 0 0 s
| xrun_S s k j s1 a s2 : xrun s k j s1 -> step s1 a = Some s2 ->
    xrun s (if spurious a then k else S k) (if spurious a then S j else j) s2.

Lemma xrun_reach w c k j s : xrun (xinit w c) k j s -> xreach lstep out n w c s.
Proof.
  remember (xinit w c) as s0. induction 1; [subst; constructor|]. econstructor; eauto.
Qed.

Lemma xrun_bound w c K v : (forall t, t < n -> runs lstep t (K t) (c t) (v t)) ->
  forall k j s, xrun (xinit w c) k j s ->
  exists d, (forall t, lsteps t (d t) (c t) (x_cells s t)) /\
    k + pool_left w (x_pool s) + main_left (x_main s) + total K n <= 4 * w + 6 * n + 5 + total K n + total d n + j.
Proof.
  intros HK k j s Hr. remember (xinit w c) as s0 eqn:E0. induction Hr as [s0|s0 k j s1 a s2 Hr IH Hs].
  - exists (fun _ => 0). split; [subst; intro; constructor|]. subst. cbn. unfold pool_left. cbn.
    assert (X : wsum wt (repeat WCheck w) = 2 * w) by (clear; induction w; cbn; lia). rewrite X. lia.
  - specialize (IH E0). subst s0. destruct IH as (d & Hd & B).
    pose proof (xinv_reach _ _ _ (xrun_reach _ _ _ _ _ Hr)) as I.
    destruct a as [a|i| | |]; cbn [xstep] in Hs.
    + destruct (own_act a) eqn:O; [|discriminate]. destruct (may_finish lstep s1 a); [|discriminate]. cbn [andb] in Hs.
      destruct (pool_step_inv _ _ _ _ Hs) as (Ec & Em & _). exists d. rewrite Ec, Em. split; [exact Hd|].
      destruct (pool_left_step w c s1 a _ s2 I Hs O) as [L|[[i ->] L]]; [|cbn [spurious]; lia].
      destruct (spurious (XPool a)); lia.
    + destruct (nth_error (workers (x_pool s1)) i) as [[| |t|]|] eqn:Ei; try discriminate.
      destruct (lstep t (x_cells s1 t)) as [u|] eqn:El; [|discriminate]. injection Hs as <-. cbn [spurious x_pool x_main x_cells].
      assert (Ht : t < n).
      { pose proof (reach_inv _ _ _ (xi_pool _ _ _ I)) as V. pose proof (i_done _ _ _ V) as Q. pose proof (i_order _ _ _ V) as Or.
        cbn in Q, Or. assert (X : In t (started (x_pool s1))).
        { eapply Permutation_in; [exact Q|]. apply in_or_app. right. eapply running_in. exact Ei. }
        assert (Y : In t (seq 0 (accepted (x_pool s1)))) by (rewrite <- Or; apply in_or_app; auto).
        apply in_seq in Y. pose proof (xi_main _ _ _ I) as M. unfold main_ok in M.
        destruct (x_main s1); [destruct M as (? & ? & _)|destruct M as (? & ? & _)|destruct M as (? & _)]; lia. }
      exists (upd d t (S (d t))). split.
      * intro y. unfold upd. destruct (Nat.eqb_spec y t) as [->|]; [econstructor; eauto|apply Hd].
      * pose proof (total_upd d t (S (d t)) n Ht). lia.
    + destruct (x_main s1) as [m| |] eqn:Em; try discriminate. destruct (Nat.ltb_spec m n) as [Hm|]; [|discriminate].
      destruct (pool_step_inv _ _ _ _ Hs) as (Ec & Em' & Hp). exists d. rewrite Ec, Em'. split; [exact Hd|].
      pose proof (xi_main _ _ _ I) as M. unfold main_ok in M. rewrite Em in M. destruct M as (_ & _ & Ed).
      cbn in Hp. rewrite Ed in Hp. destruct (stop (x_pool s1)); [discriminate|]. injection Hp as <-.
      cbn [spurious main_left]. unfold pool_left in *. cbn. rewrite Ed in *. rewrite app_length. cbn [length main_left] in *. lia.
    + destruct (x_main s1) as [m|m|] eqn:Em; try discriminate.
      * destruct (Nat.ltb_spec m n); [discriminate|]. injection Hs as <-. exists d. split; [exact Hd|].
        cbn [spurious main_left x_pool x_main] in *. lia.
      * destruct (Nat.ltb_spec m n); [|discriminate]. destruct (ready _ _); [|discriminate]. injection Hs as <-. exists d. split; [exact Hd|].
        cbn [spurious main_left x_pool x_main] in *. lia.
    + destruct (x_main s1) as [|m|] eqn:Em; try discriminate. destruct (Nat.ltb_spec m n) as [|Hm]; [discriminate|].
      destruct (pool_step_inv _ _ _ _ Hs) as (Ec & Em' & Hp). exists d. rewrite Ec, Em'. split; [exact Hd|].
      pose proof (xi_main _ _ _ I) as M. unfold main_ok in M. rewrite Em in M. destruct M as (_ & _ & Ed).
      cbn in Hp. rewrite Ed in Hp. injection Hp as <-.
      cbn [spurious main_left]. unfold pool_left in *. cbn. rewrite Ed in *. cbn [main_left] in *. lia.
Qed.

Lemma total_le d K m : (forall t, t < m -> d t <= K t) -> total d m <= total K m.
Proof. induction m as [|m IH]; intro H; cbn; [lia|]. pose proof (H m ltac:(lia)). specialize (IH ltac:(intros; apply H; lia)). lia. Qed.

Lemma xrun_ends w c K v : (forall t, t < n -> runs lstep t (K t) (c t) (v t)) ->
  forall k j s, xrun (xinit w c) k j s -> k <= 4 * w + 6 * n + 5 + total K n + j.
Proof.
  intros HK k j s Hr. destruct (xrun_bound w c K v HK k j s Hr) as (d & Hd & B).
  assert (L : total d n <= total K n).
  { apply total_le. intros t Ht. destruct (lsteps_le _ _ _ _ (Hd t) _ _ (HK t Ht)) as (x & -> & _). lia. }
  lia.
Qed.

(** a run that can no longer go on without spurious wakeups has returned *)
Lemma run_completes w c K v : 0 < w -> (forall t, t < n -> runs lstep t (K t) (c t) (v t)) ->
  forall m k j s, xrun (xinit w c) k j s -> 4 * w + 6 * n + 5 + total K n + j <= k + m ->
  exists k' s', xrun (xinit w c) k' j s' /\ returned s'.
Proof.
  intros W HK. induction m as [|m IH]; intros k j s Hr B.
  - destruct (dec_returned (x_pool s)) as [D|D]; [exists k, s; auto|].
    destruct (progress w c s (xrun_reach _ _ _ _ _ Hr) W D) as (a & s' & Sp & Hs).
    pose proof (xrun_S _ _ _ _ _ _ Hr Hs) as Hr'. rewrite Sp in Hr'.
    pose proof (xrun_ends w c K v HK _ _ _ Hr'). lia.
  - destruct (dec_returned (x_pool s)) as [D|D]; [exists k, s; auto|].
    destruct (progress w c s (xrun_reach _ _ _ _ _ Hr) W D) as (a & s' & Sp & Hs).
    pose proof (xrun_S _ _ _ _ _ _ Hr Hs) as Hr'. rewrite Sp in Hr'. apply (IH _ _ _ Hr'). lia.
Qed.

End Par.
