(** Properties of the ensemble of zenith nodes: C56, C57, C60, C62, C73, C74. *)
From Coq Require Import Reals List Arith Bool Lia Lra.
From Verif Require Import Err PoolModel PoolProofs AtmParModel AtmParProofs.
From Verif Require Import IntModel XsModel XsProofs StateModel StateProofs StateHistory StateLaws StateReady StateFrames StateProps AtmModel AtmProofs.
Import ListNotations.
Open Scope R_scope.

(** ** Building blocks of the examples *)

Definition path (c : R) : track := Track 0 (c + 2).
Definition no_grow (_ : nat) : bool := false.
Definition pow_grow (i : nat) : bool := Nat.eqb i 1 || Nat.eqb i 2 || Nat.eqb i 4.

Lemma make_nodes_done e track_of grow earth E numneu t iint x s0 : make_multi e E numneu t iint x = (Done, s0, []) ->
  forall cos i acc, exists l, make_nodes e track_of grow earth E numneu t iint x i cos acc = (Done, l) /\
    length l = (length acc + length cos)%nat.
Proof.
  intro Hm. induction cos as [|c cos IH]; intros i acc; cbn [make_nodes].
  - exists acc. split; [reflexivity|]. cbn. lia.
  - rewrite Hm. unfold set_body, set_track, seq_, modify. cbv iota beta.
    destruct (IH (S i) ((if grow i then map move_ctor acc else acc) ++
      [put_f_track true (set_q_track (Some (track_of c)) (set_q_x (tr_ini (track_of c)) (set_q_offset
        (Some (sq_t (q_sq (put_f_body true (set_q_body (Some earth) s0))) - tr_ini (track_of c)))
        (put_f_body true (set_q_body (Some earth) s0)))))])) as (l & -> & L).
    exists l. split; [reflexivity|]. rewrite L, app_length. cbn. destruct (grow i); rewrite ?map_length; lia.
Qed.

(** a node with everything set, no tables yet *)
Record set_up (earth : body) (iint : bool) (x : option xslib) (t : track) (s : nus) : Prop := {
  su_body : q_body s = Some earth; su_track : q_track s = Some t; su_off : q_offset s = Some 0; su_all : has_all s = true;
  su_int : o_int (q_opts s) = iint; su_src : o_src (q_opts s) = false; su_pos : o_pos (q_opts s) = false;
  su_tau : o_tau (q_opts s) = false; su_gr : o_gr (q_opts s) = false;
  su_ncs : i_ncs (q_ints s) = x; su_tabs : i_tabs (q_ints s) = None; su_done : i_done (q_ints s) = false }.

(** an ensemble made and given a state *)
Lemma atm_made_up e (track_of : R -> track) (grow : nat -> bool) earth (cos E : list R) numneu iint x v :
  (3 <= numneu)%nat -> (numneu <= e_maxdim e)%nat -> E <> [] -> cos <> [] ->
  exists a0 a, make_atm e track_of grow earth cos E numneu Nu iint x = (Done, Some a0) /\ aexec e (AInit3 (length cos) (length E) numneu v BFlavor) a0 = (Done, a) /\
    a_ini a = Some true /\ a_made a = true /\ a_threads a = Some 1%nat /\ length (a_nodes a) = length cos /\
    Forall (fun s => exists t, set_up earth iint x t s) (a_nodes a) /\ nodes_ok e (a_nodes a) /\
    Forall (fun s => q_numneu s = numneu) (a_nodes a) /\ a_cos a0 = cos /\ a_ncs a = x.
Proof.
  intros H1 H2 H3 H4. destruct (make_multi_ok e E numneu Nu iint x H1 H2 H3) as (s0 & Hm & Re).
  destruct (make_nodes_done e track_of grow earth E numneu Nu iint x s0 Hm cos 0 []) as (l & Hl & L).
  destruct (make_nodes_ok e track_of grow earth E numneu Nu iint x cos 0 [] _ _ Hl eq_refl s0 Hm (Forall_nil _)) as [F _].
  destruct l as [|s1 l]; [destruct cos; [congruence|cbn in L; lia]|].
  set (a0 := Atm None true cos (q_E s1) (s1 :: l) (Some earth) (i_ncs (q_ints s1)) None (Some 1%nat)).
  assert (Mk0 : make_atm e track_of grow earth cos E numneu Nu iint x = (Done, Some a0)) by (unfold make_atm; rewrite Hl; reflexivity).
  pose proof (made_new e track_of grow earth cos E numneu Nu iint x a0 Mk0) as Mk.
  destruct (made_ok e a0 Mk) as (N0 & L0 & Ne0 & T0 & M0 & _).
  unfold rest in Re. injection Re as R1 R2 R3 R4 R5 R6 R7 R8 R9 R10 R11 R12 R13 R14 R15 R16.
  rewrite Forall_forall in F.
  assert (Sn : forall s, In s (s1 :: l) -> same (set_q_body (Some earth) s0) s) by (intros s Hs; apply (F s Hs)).
  assert (E1 : q_E s1 = E) by (rewrite <- (sm_E _ _ (Sn s1 (or_introl eq_refl))); exact R5).
  assert (Dn : forall w s, In s (s1 :: l) -> out_res (init_state2 e (length E) numneu w BFlavor s) = Done).
  { intros w s Hs. destruct (F s Hs) as (N & S & _). unfold init_state2, read. rewrite checks_eq.
    rewrite <- (sm_ne _ _ S), <- (sm_numneu _ _ S), <- (sm_nt _ _ S), (no_track _ _ N), (no_body _ _ N), (no_energy _ _ N).
    cbn [q_ne q_numneu q_nt set_q_body existsb]. rewrite R1, R2, R3, !Nat.eqb_refl.
    destruct (Nat.eqb_spec (length E * numneu) 0) as [Z|_]; [destruct E; [congruence|cbn in Z; lia]|]. cbn [negb orb basis_eqb nt_eqb].
    destruct (q_track s) as [t|] eqn:T; [|exfalso; exact (no_path _ _ N T)].
    destruct (fill_state_eq e (fun i _ j => w i j) BFlavor s t (no_max _ _ N) T (no_energy _ _ N)) as (s' & -> & _). reflexivity. }
  destruct (init_all_or_nothing3 e (length cos) (length E) numneu v BFlavor a0 N0 Ne0) as [(l2 & X & Y)|X].
  - exists a0, (with_ini true (with_nodes l2 a0)). split; [exact Mk0|]. split; [exact X|].
    pose proof (aexec_nodes e (AInit3 (length cos) (length E) numneu v BFlavor) a0 eq_refl N0) as N2. cbn [aexec] in N2.
    rewrite X in N2. cbn [snd with_ini with_nodes a_nodes] in N2.
    assert (K : Forall2 (fun s s' => node_ok e s' /\ same s s' /\ switches s' = switches s /\ q_ints s' = q_ints s) (s1 :: l) l2).
    { unfold a_init3 in X. cbn [a0 a_cos a_E] in X. rewrite E1, !Nat.eqb_refl in X. cbn [negb] in X. unfold a_fill in X.
      destruct (each _ 0 (a_nodes a0)) as [r l3] eqn:Ee. destruct r; try discriminate. injection X as X. subst l3.
      apply (each_all _ _ _ _ _ Ee). intros j s s' ev Hs Hf. destruct (F s Hs) as (N & _).
      pose proof (init2_kept e (length E) numneu (v j) BFlavor s N) as [K1 K2]. rewrite Hf in K1, K2. cbn in K1, K2.
      split; [exact K1|]. split; [exact K2|]. split; [symmetry; apply K2|].
      assert (J : q_ints s' = q_ints (out_obj (init_state2 e (length E) numneu (v j) BFlavor s))) by (rewrite Hf; reflexivity).
      rewrite J. unfold init_state2, read. rewrite checks_eq. destruct (existsb _ _); [reflexivity|]. apply fill_ints. }
    assert (L2 : length l2 = length (s1 :: l)) by (clear -K; induction K; cbn in *; congruence).
    cbn [with_ini with_nodes a_ini a_made a_threads a_nodes]. split; [reflexivity|]. split; [reflexivity|]. split; [reflexivity|].
    split; [rewrite L2; exact L|]. split; [|split; [exact N2|split; [|split; [reflexivity|]]]].
    + apply Forall_forall. intros s' Hs'. rewrite Forall_forall in Y. destruct (Y s' Hs') as (Yf & t & Yt & Yo & _).
      assert (B : exists s, In s (s1 :: l) /\ node_ok e s' /\ same s s' /\ q_ints s' = q_ints s).
      { clear -K Hs'. induction K as [|x y l1 l2 (H1 & H2 & H3 & H4) K IH]; [destruct Hs'|]. destruct Hs' as [<-|Hs'].
        - exists x. split; [left; reflexivity|]. auto.
        - destruct (IH Hs') as (s & A & B). exists s. split; [right; exact A|exact B]. }
      destruct B as (s & Hs & N & S & J). destruct (F s Hs) as (_ & _ & _ & _ & J1 & J2 & J3 & _). pose proof (same_trans _ _ _ (Sn s Hs) S) as S2.
      pose proof (sm_switches _ _ S2) as SW. unfold switches in SW. cbn [set_q_body q_opts q_nt] in SW. rewrite R7 in SW. cbn in SW.
      injection SW as W1 W2 W3 W4 W5 W6 W7 W8.
      rewrite <- J in J1, J2, J3. cbn in J1. rewrite R8 in J1. cbn in J1.
      exists t. constructor; auto; try congruence.
      * rewrite <- (sm_body _ _ S2). reflexivity.
      * unfold has_all. rewrite (no_body _ _ N), (no_track _ _ N), Yf, (no_energy _ _ N). reflexivity.
    + apply Forall_forall. intros s' Hs'.
      assert (B : exists s, In s (s1 :: l) /\ same s s').
      { clear -K Hs'. induction K as [|x y l1 l2 (H1 & H2 & H3 & H4) K IH]; [destruct Hs'|]. destruct Hs' as [<-|Hs'].
        - exists x. split; [left; reflexivity|]. auto.
        - destruct (IH Hs') as (s & A & B). exists s. split; [right; exact A|exact B]. }
      destruct B as (s & Hs & S). rewrite <- (sm_numneu _ _ S), <- (sm_numneu _ _ (Sn s Hs)). exact R2.
    + cbn. destruct (F s1 (or_introl eq_refl)) as (_ & _ & _ & _ & J1 & _). rewrite J1. cbn. rewrite R8. reflexivity.
  - exfalso. unfold a_init3 in X. cbn [a0 a_cos a_E] in X. rewrite E1, !Nat.eqb_refl in X. cbn [negb] in X. unfold a_fill in X.
    destruct (each_done_at (fun _ => True) (a_nodes a0) (fun i => init_state2 e (length E) numneu (v i) BFlavor) 0) as [Z _].
    + intros j s Hs. apply Dn. exact Hs.
    + auto.
    + destruct (each _ 0 (a_nodes a0)) as [r l2]. cbn in Z. subst r. discriminate.
Qed.
Lemma atm_set_up e (track_of : R -> track) (grow : nat -> bool) earth (cos E : list R) numneu iint x v :
  (3 <= numneu)%nat -> (numneu <= e_maxdim e)%nat -> E <> [] -> cos <> [] ->
  exists a0 a, made_atm e a0 /\ aexec e (AInit3 (length cos) (length E) numneu v BFlavor) a0 = (Done, a) /\
    a_ini a = Some true /\ a_made a = true /\ a_threads a = Some 1%nat /\ length (a_nodes a) = length cos /\
    Forall (fun s => exists t, set_up earth iint x t s) (a_nodes a) /\ nodes_ok e (a_nodes a) /\
    Forall (fun s => q_numneu s = numneu) (a_nodes a) /\ a_cos a0 = cos /\ a_ncs a = x.
Proof.
  intros H1 H2 H3 H4. destruct (atm_made_up e track_of grow earth cos E numneu iint x v H1 H2 H3 H4) as (a0 & a & Mk & K).
  exists a0, a. split; [|exact K]. exact (made_new e track_of grow earth cos E numneu Nu iint x a0 Mk).
Qed.

Lemma set_up_able earth t x s : set_up earth false x t s -> able earth t 0 s.
Proof. intros []. constructor; auto. Qed.

(** ** C56: threads make no difference *)

(** Whatever the nodes' evolutions do in whatever small steps, however many workers there are and however their steps are
    interleaved: once the call has returned, the nodes are as if they had been evolved one after the other, every task has
    put its own node's outcome in its future, and nodes that are not there were not touched. *)
Theorem c56_every_schedule : forall (N A : Type) (lstep : nat -> N -> option N) (out : N -> outcome A) (n w : nat)
    (c : nat -> N) (s : xstate N A), xreach lstep out n w c s -> (0 < w)%nat -> returned s ->
  exists c', serial lstep n c c' /\ (forall t, x_cells s t = c' t) /\
    (forall t, (t < n)%nat -> In (t, out (c' t)) (futures (x_pool s))) /\ NoDup (map fst (futures (x_pool s))).
Proof.
  intros N A lstep out n w c s Re W Rt. destruct (returned_done lstep out n w c s Re W Rt) as (H1 & H2 & H3 & H4).
  destruct (serial_exists lstep n c (x_cells s) H1) as (c' & S & E). exists c'. split; [exact S|].
  assert (X : forall t, x_cells s t = c' t).
  { intro t. destruct (Nat.lt_ge_cases t n); [symmetry; auto|]. destruct (serial_cells lstep n c c' S) as [_ Z].
    rewrite Z, H2 by assumption. reflexivity. }
  split; [exact X|]. split; [|exact H4]. intros t Ht. rewrite <- X. auto.
Qed.

(** It never gets stuck: until it has returned some thread can make a step that is not a spurious wakeup. *)
Theorem c56_no_deadlock : forall (N A : Type) (lstep : nat -> N -> option N) (out : N -> outcome A) (n w : nat)
    (c : nat -> N) (s : xstate N A), xreach lstep out n w c s -> (0 < w)%nat -> ~ returned s ->
  exists a s', spurious a = false /\ xstep lstep out n s a = Some s'.
Proof. intros N A lstep out n w c s. exact (progress lstep out n w c s). Qed.

(** And it ends: if every node's evolution alone ends, after [K t] steps for node [t], every run has a bounded number of steps
    that are not spurious wakeups (up to one more for each of those), and every run can be continued to its end. *)
Theorem c56_terminates : forall (N A : Type) (lstep : nat -> N -> option N) (out : N -> outcome A) (n w : nat)
    (c : nat -> N) (K : nat -> nat) (v : nat -> N), (0 < w)%nat ->
  (forall t, (t < n)%nat -> runs lstep t (K t) (c t) (v t)) ->
  forall k j s, xrun lstep out n (xinit w c) k j s ->
    (k <= 4 * w + 6 * n + 5 + total K n + j)%nat /\
    exists k' s', xrun lstep out n (xinit w c) k' j s' /\ returned s'.
Proof.
  intros N A lstep out n w c K v W HK k j s Hr. split; [exact (xrun_ends lstep out n w c K v HK k j s Hr)|].
  apply (run_completes lstep out n w c K v W HK (4 * w + 6 * n + 5 + total K n + j) k j s Hr). lia.
Qed.

(** Instantiated to zenith nodes: for every way of splitting a node's EvolveState into steps, threads leave in the nodes what
    [evolve_parallel] says. *)
Definition impl {C} (e : env) (lstep : nat -> C -> option C) (node : C -> nus) (l : list nus) (c : nat -> C) : Prop :=
  forall t s, nth_error l t = Some s -> forall k v, runs lstep t k (c t) v -> node v = out_obj (evolve_state e s).

Theorem c56_nodes : forall (e : env) (C A : Type) (lstep : nat -> C -> option C) (node : C -> nus) (out : C -> outcome A)
    (l : list nus) (c : nat -> C) (w : nat) (s : xstate C A),
  impl e lstep node l c -> xreach lstep out (length l) w c s -> (0 < w)%nat -> returned s ->
  map (fun t => node (x_cells s t)) (seq 0 (length l)) = snd (evolve_parallel e l).
Proof.
  intros e C A lstep node out l c w s I Re W Rt.
  destruct (returned_done lstep out (length l) w c s Re W Rt) as (H1 & _).
  assert (X : forall k, (k <= length l)%nat ->
    map (fun t => node (x_cells s t)) (seq 0 k) = map snd (map (fun s => fst (evolve_state e s)) (firstn k l))).
  { induction k as [|k IH]; intro Hk; [reflexivity|].
    rewrite seq_S, map_app, IH by lia. cbn [map Nat.add].
    destruct (nth_error l k) as [u|] eqn:E; [|apply nth_error_None in E; lia].
    destruct (H1 k ltac:(lia)) as [j Hj]. rewrite (I k u E j _ Hj).
    assert (F : firstn (S k) l = firstn k l ++ [u]).
    { clear - E. revert l E. induction k as [|k IH]; intros [|a l] E; cbn in E; try discriminate; [injection E as ->; reflexivity|].
      cbn [firstn app]. f_equal. exact (IH l E). }
    rewrite F, !map_app. reflexivity. }
  rewrite (X (length l)) by lia. rewrite firstn_all. reflexivity.
Qed.

(** If no node's evolution throws, evolving one after the other gives the same nodes. *)
Theorem c56_same_nodes e l : (forall s, In s l -> out_res (evolve_state e s) = Done) ->
  evolve_serial e l = evolve_parallel e l.
Proof.
  intro H. unfold evolve_serial, evolve_parallel. rewrite each_done by exact H. f_equal.
  - induction l as [|s l IH]; [reflexivity|]. cbn [map first_undef fold_right].
    pose proof (H s (or_introl eq_refl)) as Hs. unfold out_res in Hs. rewrite Hs. apply IH. intros; apply H; right; assumption.
  - rewrite map_map. reflexivity.
Qed.

(** So the result of EvolveState does not depend on the number of threads, when it succeeds with one. *)
Theorem c56_thread_count e a k : fst (a_evolve e (with_threads 1 a)) = Done ->
  a_evolve e (with_threads k a) = (Done, with_threads k (snd (a_evolve e (with_threads 1 a)))).
Proof.
  unfold a_evolve. replace (a_guard (with_threads k a)) with (a_guard a) by reflexivity.
  replace (a_guard (with_threads 1 a)) with (a_guard a) by reflexivity.
  destruct (a_guard a); try discriminate.
  assert (Sh : forall j, share_tables e (with_threads j a) =
                (fst (share_tables e a), with_threads j (snd (share_tables e a))) ).
  { intro j. unfold share_tables. cbn [with_threads a_nodes]. destruct (a_nodes a) as [|s0 rest]; [reflexivity|].
    destruct (o_int (q_opts s0)); [|reflexivity]. destruct (init_interactions e s0) as [[r s0'] ev].
    destruct r; [|reflexivity|reflexivity]. destruct (each _ 0 (s0' :: rest)) as [r l]. reflexivity. }
  rewrite !Sh. destruct (share_tables e a) as [r a1]. cbn [fst snd].
  destruct r; try discriminate. cbn [with_threads a_threads a_nodes Nat.eqb].
  destruct (evolve_serial e (a_nodes a1)) as [r l] eqn:Es. cbn. intro D. subst r.
  assert (H : forall s, In s (a_nodes a1) -> out_res (evolve_state e s) = Done).
  { apply (each_res (evolve_state e) (a_nodes a1) 0). unfold evolve_serial in Es. rewrite Es. reflexivity. }
  destruct (Nat.eqb k 1); [reflexivity|]. rewrite <- (c56_same_nodes e (a_nodes a1) H), Es. reflexivity.
Qed.

(** Two workers, two nodes that count down to zero: a run in which both tasks are interleaved. *)
Definition down (_ x : nat) : option nat := match x with O => None | S y => Some y end.
Definition down_out (x : nat) : outcome nat := Ok x.
Fixpoint xgo (s : xstate nat nat) (l : list xact) : option (xstate nat nat) :=
  match l with [] => Some s | a :: r => match xstep down down_out 2 s a with Some s' => xgo s' r | None => None end end.
Definition interleaved : list xact :=
  [XEnq; XPool (AWork 1); XEnq; XPool (AWork 0); XTask 1; XTask 0; XTask 1; XPool (AFinish 1); XTask 0; XPool (AWork 1); XWait;
   XTask 0; XPool (AFinish 0); XPool (ANotifyOne 1); XWait; XWait; XDtor; XPool ANotifyNone; XPool ANotifyAll;
   XPool (AWork 0); XPool (AWork 1); XPool AJoin; XPool AJoin; XPool AJoin].
Lemma xgo_reach l : forall s s', xreach down down_out 2 2 (fun t => 2 + t)%nat s -> xgo s l = Some s' ->
  xreach down down_out 2 2 (fun t => 2 + t)%nat s'.
Proof.
  induction l as [|a l IH]; intros s s' Hr H; cbn in H; [congruence|].
  destruct (xstep down down_out 2 s a) as [s1|] eqn:E; [|discriminate]. apply (IH s1); [|exact H]. econstructor; eauto.
Qed.
Example c56_nonvacuous : exists s, xreach down down_out 2 2 (fun t => 2 + t)%nat s /\ returned s /\
  x_cells s 0%nat = 0%nat /\ x_cells s 1%nat = 0%nat /\ x_cells s 2%nat = 4%nat.
Proof.
  destruct (xgo (xinit 2 (fun t => 2 + t)%nat) interleaved) as [s|] eqn:E; [|vm_compute in E; discriminate].
  exists s. split; [apply (xgo_reach interleaved (xinit 2 (fun t => 2 + t)%nat)); [constructor|exact E]|].
  vm_compute in E. injection E as <-. repeat split.
Qed.
(** Two nodes ready to be evolved. *)
Lemma two_ready e (H : (3 <= e_maxdim e)%nat) : exists a0 a, made_atm e a0 /\
  aexec e (AInit3 2 2 3 (fun _ _ _ => 1) BFlavor) a0 = (Done, a) /\
  a_ini a = Some true /\ a_made a = true /\ a_threads a = Some 1%nat /\
  Forall (fun s => exists t, able earth t 0 s) (a_nodes a) /\ nodes_ok e (a_nodes a) /\ Forall (fun s => q_numneu s = 3%nat) (a_nodes a) /\
  exists s1 s2, a_nodes a = [s1; s2].
Proof.
  destruct (atm_set_up e path pow_grow earth [-1; 1] [1; 2] 3 false None (fun _ _ _ => 1)) as (a0 & a & Mk & I & A1 & A2 & A3 & L & F & N & Q & _);
    [lia|lia|discriminate|discriminate|].
  exists a0, a. repeat (split; [assumption|]). split.
  { apply Forall_forall. rewrite Forall_forall in F. intros s Hs. destruct (F s Hs) as [t Ht]. exists t. exact (set_up_able _ _ _ _ Ht). }
  repeat (split; [assumption|]). destruct (a_nodes a) as [|s1 [|s2 [|]]]; try discriminate L. eauto.
Qed.

Lemma share_none e a : (forall s, In s (a_nodes a) -> o_int (q_opts s) = false) -> a_nodes a <> [] -> share_tables e a = (Done, a).
Proof.
  intros H N. unfold share_tables. destruct (a_nodes a) as [|s0 l]; [congruence|]. rewrite (H s0 (or_introl eq_refl)). reflexivity.
Qed.

Lemma wenv_solves : forall s1 dt, snd (fst (fst (e_solve wenv s1 dt))) = true. Proof. reflexivity. Qed.
Example c56_thread_count_nonvacuous : exists a0 a, made_atm wenv a0 /\
  ahist wenv a0 [(AInit3 2 2 3 (fun _ _ _ => 1) BFlavor, Done)] a /\ fst (a_evolve wenv (with_threads 1 a)) = Done /\
  a_evolve wenv (with_threads 8 a) = (Done, with_threads 8 (snd (a_evolve wenv (with_threads 1 a)))).
Proof.
  destruct (two_ready wenv ltac:(cbn; lia)) as (a0 & a & Mk & I & A1 & A2 & A3 & F & N & Q & s1 & s2 & L).
  exists a0, a. split; [exact Mk|]. split; [econstructor; [constructor|exact I|discriminate]|].
  assert (D : fst (a_evolve wenv (with_threads 1 a)) = Done).
  { rewrite Forall_forall in F. unfold a_evolve. unfold a_guard. cbn [with_threads a_ini a_made]. rewrite A1, A2.
    rewrite share_none.
    - cbn [with_threads a_threads Nat.eqb a_nodes].
      destruct (each_done_at (fun _ => True) (a_nodes a) (fun _ => evolve_state wenv) 0) as [D _]; [|auto|].
      + intros _ s Hs. destruct (F s Hs) as [t Ab].
        destruct (able_evolve wenv earth t 0 s wenv_solves Ab) as (s' & ev & X & _). cbn [exec] in X. rewrite X. reflexivity.
      + unfold evolve_serial. destruct (each _ 0 _) as [r l]. cbn in D. subst r. reflexivity.
    - intros s Hs. destruct (F s Hs) as [t Ab]. apply Ab.
    - cbn. rewrite L. discriminate. }
  split; [exact D|]. exact (c56_thread_count wenv a 8 D).
Qed.
Print Assumptions c56_every_schedule.
Print Assumptions c56_no_deadlock.
Print Assumptions c56_terminates.
Print Assumptions c56_nodes.
Print Assumptions c56_same_nodes.
Print Assumptions c56_thread_count.

(** If a node's evolution throws the threads do make a difference: one after the other, the nodes behind it are not evolved
    at all; with threads they are. *)
Theorem c56_failing_refuted : exists l, fst (evolve_serial wenv l) = Threw /\ fst (evolve_parallel wenv l) = Done /\
  snd (evolve_serial wenv l) = l /\ snd (evolve_parallel wenv l) <> l.
Proof.
  destruct (two_ready wenv ltac:(cbn; lia)) as (a0 & a & Mk & I & A1 & A2 & A3 & F & N & Q & s1 & s2 & L).
  rewrite L in F. inversion F as [|? ? F1 F2]; subst. inversion F2 as [|? ? F3 _]; subst.
  destruct F1 as [t1 Ab1]. destruct F3 as [t2 Ab2].
  assert (T : exists t2, able earth t2 0 (set_q_track (Some (Track 0 4)) s2)) by (exists (Track 0 4); destruct Ab2; constructor; auto).
  destruct T as [t3 Ab3]. pose proof (ab_track _ _ _ _ Ab3) as Tr. cbn in Tr. injection Tr as <-.
  destruct (able_evolve wenv earth (Track 0 4) 0 _ wenv_solves Ab3) as (s' & ev & X & _ & C & _). cbn [exec] in X.
  exists [put_f_state false s1; set_q_track (Some (Track 0 4)) s2].
  assert (T1 : evolve_state wenv (put_f_state false s1) = (Threw, put_f_state false s1, [])).
  { rewrite (evolve_state_eq wenv earth t1); [|apply Ab1|apply Ab1].
    unfold has_all. cbn [put_f_state set_q_flags set_f_state q_flags f_state f_body f_track]. rewrite andb_false_r. reflexivity. }
  unfold evolve_serial, evolve_parallel. cbn [each map]. rewrite T1, X. cbn.
  split; [reflexivity|]. split; [reflexivity|]. split; [reflexivity|].
  intro Z. injection Z as Z. apply (f_equal (fun s => sq_t (q_sq s))) in Z. rewrite C in Z. cbn in Z. lra.
Qed.
Print Assumptions c56_failing_refuted.

(** ** C57: failures are reported *)

(** One after the other: EvolveState throws exactly when some node's evolution does. *)
Theorem c57_serial : forall e l, (forall s u, In s l -> out_res (evolve_state e s) <> Undef u) ->
  (fst (evolve_serial e l) = Threw <-> exists s, In s l /\ out_res (evolve_state e s) = Threw).
Proof. intros e l. exact (each_threw (evolve_state e) l 0). Qed.

(** With threads nothing a node's evolution throws ever reaches the caller: the futures are waited for but never asked. *)
Theorem c57_parallel_refuted : exists a0 h a, made_atm wenv a0 /\ ahist wenv a0 h a /\
  map fst h = [ASet (BAngle 0 1 (1 / 2)); AThreads 2 8; AInit3 2 2 3 (fun _ _ _ => 1) BFlavor] /\
  (forall s, In s (a_nodes a) -> out_res (evolve_state wenv s) = Threw) /\
  aexec wenv AEvolve a = (Done, a) /\
  fst (aexec wenv AEvolve (with_threads 1 a)) = Threw.
Proof.
  destruct (two_ready wenv ltac:(cbn; lia)) as (a0 & a & Mk & I & A1 & A2 & A3 & F & N & Q & s1 & s2 & L).
  set (a1 := with_threads 2 a).
  assert (S : exists a2, aexec wenv (ASet (BAngle 0 1 (1 / 2))) a1 = (Done, a2) /\
     a2 = with_nodes (map (fun s => out_obj (exec wenv (CAngle 0 1 (1 / 2)) s)) (a_nodes a)) a1).
  { cbn [aexec node_call]. unfold on_all. change (a_nodes a1) with (a_nodes a). rewrite each_done; [eauto|].
    intros s Hs. rewrite Forall_forall in Q. cbn [exec]. rewrite angle_ok; [reflexivity|lia|lia|rewrite (Q s Hs); lia|cbn; lia]. }
  destruct S as (a2 & S & E2).
  assert (Nd : forall s', In s' (a_nodes a2) -> exists s, In s (a_nodes a) /\ s' = out_obj (exec wenv (CAngle 0 1 (1 / 2)) s)).
  { intros s' Hs'. rewrite E2 in Hs'. cbn in Hs'. apply in_map_iff in Hs'. destruct Hs' as (s & <- & Hs). eauto. }
  rewrite Forall_forall in F, Q.
  assert (Th : forall s', In s' (a_nodes a2) -> evolve_state wenv s' = (Threw, s', [])).
  { intros s' Hs'. destruct (Nd s' Hs') as (s & Hs & ->). destruct (F s Hs) as [t Ab]. cbn [exec].
    rewrite angle_ok; [|lia|lia|rewrite (Q s Hs); lia|cbn; lia]. cbn [out_obj fst snd].
    rewrite (evolve_state_eq wenv earth t); [|apply Ab|apply Ab].
    unfold has_all. cbn [put_f_state set_q_flags set_f_state q_flags f_state f_body f_track].
    rewrite andb_false_r. reflexivity. }
  assert (OI : forall s', In s' (a_nodes a2) -> o_int (q_opts s') = false).
  { intros s' Hs'. destruct (Nd s' Hs') as (s & Hs & ->). destruct (F s Hs) as [t Ab]. cbn [exec].
    rewrite angle_ok; [|lia|lia|rewrite (Q s Hs); lia|cbn; lia]. apply Ab. }
  assert (Ne : a_nodes a2 <> []) by (rewrite E2; cbn; rewrite L; discriminate).
  assert (G : a_guard a2 = Done) by (rewrite E2; unfold a_guard; cbn; rewrite A1, A2; reflexivity).
  exists a0, [(ASet (BAngle 0 1 (1 / 2)), Done); (AThreads 2 8, Done); (AInit3 2 2 3 (fun _ _ _ => 1) BFlavor, Done)], a2.
  split; [exact Mk|]. split.
  { econstructor; [|exact S|discriminate]. econstructor; [|reflexivity|discriminate].
    econstructor; [constructor|exact I|discriminate]. }
  split; [reflexivity|]. split; [intros s Hs; rewrite (Th s Hs); reflexivity|]. split.
  - cbn [aexec]. unfold a_evolve. rewrite G, (share_none _ _ OI Ne).
    assert (T2 : a_threads a2 = Some 2%nat) by (rewrite E2; reflexivity). rewrite T2. cbn [Nat.eqb].
    unfold evolve_parallel.
    assert (X : map (fun s => fst (evolve_state wenv s)) (a_nodes a2) = map (fun s => (Threw, s)) (a_nodes a2)).
    { apply map_ext_in. intros s Hs. rewrite (Th s Hs). reflexivity. }
    rewrite X, !map_map. cbn [fst snd]. rewrite map_id, with_nodes_eq. f_equal.
    clear. induction (a_nodes a2) as [|s l IH]; [reflexivity|exact IH].
  - cbn [aexec]. unfold a_evolve. change (a_guard (with_threads 1 a2)) with (a_guard a2). rewrite G.
    rewrite (share_none wenv (with_threads 1 a2) OI Ne). cbn [with_threads a_threads a_nodes Nat.eqb].
    destruct (a_nodes a2) as [|x l] eqn:En; [congruence|]. unfold evolve_serial.
    rewrite each_first by (rewrite (Th x); [discriminate|left; reflexivity]). rewrite (Th x); [reflexivity|left; reflexivity].
Qed.

(** It is so for every ensemble: with threads EvolveState throws only what the checks and the tables throw. *)
Theorem c57_parallel_silent : forall e a k, a_threads a = Some k -> k <> 1%nat -> fst (a_evolve e a) = Threw ->
  a_guard a = Threw \/ fst (share_tables e a) = Threw.
Proof.
  intros e a k K Hk. unfold a_evolve. destruct (a_guard a); [|auto|discriminate].
  assert (Sh : a_threads (snd (share_tables e a)) = a_threads a).
  { unfold share_tables. destruct (a_nodes a) as [|s0 rest] eqn:En; [reflexivity|].
    destruct (o_int (q_opts s0)); [|reflexivity]. destruct (init_interactions e s0) as [[r s0'] ev].
    destruct r; try reflexivity. destruct (each _ 0 (s0' :: rest)) as [r l]. reflexivity. }
  destruct (share_tables e a) as [r a1]. cbn in Sh. destruct r; [|auto|discriminate]. rewrite Sh, K.
  destruct (Nat.eqb_spec k 1); [congruence|]. cbn. intro H. exfalso. revert H.
  generalize (map fst (map (fun s => fst (evolve_state e s)) (a_nodes a1))). intro rs.
  induction rs as [|[| |u] rs IH]; cbn; try discriminate; auto.
Qed.

Example c57_serial_nonvacuous : exists l, (forall s u, In s l -> out_res (evolve_state wenv s) <> Undef u) /\
  fst (evolve_serial wenv l) = Threw.
Proof.
  destruct (two_ready wenv ltac:(cbn; lia)) as (a0 & a & Mk & I & A1 & A2 & A3 & F & N & Q & s1 & s2 & L).
  rewrite L in F. inversion F as [|? ? [t1 Ab1] F2]; subst. inversion F2 as [|? ? [t2 Ab2] _]; subst.
  destruct (able_evolve wenv earth t2 0 s2 wenv_solves Ab2) as (s' & ev & X & _). cbn [exec] in X.
  assert (T1 : evolve_state wenv (put_f_state false s1) = (Threw, put_f_state false s1, [])).
  { rewrite (evolve_state_eq wenv earth t1); [|apply Ab1|apply Ab1].
    unfold has_all. cbn [put_f_state set_q_flags set_f_state q_flags f_state f_body f_track]. rewrite andb_false_r. reflexivity. }
  exists [s2; put_f_state false s1]. split.
  - intros s u [<-|[<-|[]]]; [rewrite X|rewrite T1]; discriminate.
  - unfold evolve_serial. cbn [each]. rewrite X, T1. reflexivity.
Qed.
Print Assumptions c57_serial.
Print Assumptions c57_parallel_refuted.
Print Assumptions c57_parallel_silent.

(** ** C60: the number of threads *)

(** Once constructed an ensemble evolves with a definite number of threads, at least one, whatever is called on it. *)
Theorem c60_threads : forall e a0 h a, made_atm e a0 -> ahist e a0 h a -> exists k, a_threads a = Some k /\ (1 <= k)%nat.
Proof.
  intros e a0 h a Mk H. induction H as [|h a c r a' H IH E U].
  - destruct (made_ok e a0 Mk) as (_ & _ & _ & T & _). eauto.
  - pose proof (aexec_threads e c a) as X. rewrite E in X. cbn [snd] in X. rewrite X. destruct c; try exact IH.
    eexists. split; [reflexivity|]. unfold threads_for. destruct (Nat.eqb_spec k 0); [|lia]. destruct (Nat.eqb_spec hw 0); lia.
Qed.

(** It is the number last asked for; asked for zero it is what the machine reports, or one if it reports nothing; until
    asked, it is one. *)
Fixpoint asked (h : list (acall * res)) : option (nat * nat) :=
  match h with [] => None | (AThreads k hw, _) :: _ => Some (k, hw) | _ :: h' => asked h' end.
Theorem c60_requested : forall e a0 h a, made_atm e a0 -> ahist e a0 h a ->
  a_threads a = Some match asked h with
    | None => 1 | Some (0, 0) => 1 | Some (0, hw) => hw | Some (k, _) => k end%nat.
Proof.
  intros e a0 h a Mk H. induction H as [|h a c r a' H IH E U].
  - apply (made_ok e a0 Mk).
  - pose proof (aexec_threads e c a) as X. rewrite E in X. cbn [snd] in X. rewrite X. destruct c; try exact IH.
    cbn. unfold threads_for. destruct k; [destruct hw; reflexivity|reflexivity].
Qed.
Example c60_nonvacuous : exists a0 h a, made_atm wenv a0 /\ ahist wenv a0 h a /\ asked h = Some (0, 4)%nat /\ a_threads a = Some 4%nat.
Proof.
  destruct (two_ready wenv ltac:(cbn; lia)) as (a0 & a & Mk & I & _).
  exists a0, [(AInit3 2 2 3 (fun _ _ _ => 1) BFlavor, Done); (AThreads 0 4, Done); (AThreads 3 4, Done)].
  assert (X : exists a', ahist wenv a0 [(AInit3 2 2 3 (fun _ _ _ => 1) BFlavor, Done); (AThreads 0 4, Done); (AThreads 3 4, Done)] a').
  { assert (Y : exists a', aexec wenv (AInit3 2 2 3 (fun _ _ _ => 1) BFlavor) (with_threads 4 (with_threads 3 a0)) = (Done, a')).
    { cbn [aexec] in *. unfold a_init3 in *. cbn [with_threads a_cos a_E] in *. destruct (negb _); [discriminate|].
      destruct (negb _); [discriminate|]. unfold a_fill in *. cbn [with_threads a_nodes] in *.
      destruct (each _ 0 (a_nodes a0)) as [r l]. destruct r; try discriminate. eauto. }
    destruct Y as [a' Y]. exists a'. econstructor; [|exact Y|discriminate]. econstructor; [|reflexivity|discriminate].
    econstructor; [constructor|reflexivity|discriminate]. }
  destruct X as [a' X]. exists a'. split; [exact Mk|]. split; [exact X|]. split; [reflexivity|].
  rewrite (c60_requested wenv a0 _ a' Mk X). reflexivity.
Qed.

(** An ensemble constructed from a file never gets a number of threads: evolving it reads an indeterminate value. *)
Theorem c60_from_file_refuted : forall e cos E s0 l earth t, o_int (q_opts s0) = false ->
  aexec e AEvolve (a_read cos E (s0 :: l) earth t a_blank) =
    (Undef Uninit, a_read cos E (s0 :: l) earth t a_blank).
Proof. intros e cos E s0 l earth t H. cbn [aexec]. unfold a_evolve, share_tables. cbn [a_guard a_read a_ini a_made a_nodes]. rewrite H. reflexivity. Qed.
Example c60_from_file_nonvacuous : exists a0 a s0 l, made_atm wenv a0 /\ ahist wenv a0 [(AInit3 2 2 3 (fun _ _ _ => 1) BFlavor, Done)] a /\
  a_nodes a = s0 :: l /\ o_int (q_opts s0) = false.
Proof.
  destruct (two_ready wenv ltac:(cbn; lia)) as (a0 & a & Mk & I & A1 & A2 & A3 & F & N & Q & s1 & s2 & L).
  exists a0, a, s1, [s2]. split; [exact Mk|]. split; [econstructor; [constructor|exact I|discriminate]|]. split; [exact L|].
  rewrite L in F. inversion F as [|? ? [t1 Ab1] F2]; subst. apply Ab1.
Qed.
Print Assumptions c60_threads.
Print Assumptions c60_requested.
Print Assumptions c60_from_file_refuted.

(** ** C62: settings go to all nodes *)

(** Whatever is called on the ensemble, all its nodes agree on particle type, sizes, energies, mixing parameters, switches and
    medium. *)
Theorem c62_settings : forall e a0 h a s s2, made_atm e a0 -> ahist e a0 h a -> by_ensemble h ->
  In s (a_nodes a) -> In s2 (a_nodes a) -> same s s2.
Proof. intros e a0 h a s s2 Mk H B. destruct (hist_nodes e a0 h a Mk H B) as ((_ & S) & _). apply S. Qed.

(** A setter either does at every node what it does at a single object, or throws and changes nothing. *)
Definition same_at_all (e : env) (m : M) (a a' : atm) : Prop :=
  Forall2 (fun s s' => exists ev, m s = (Done, s', ev)) (a_nodes a) (a_nodes a').
Theorem c62_applied : forall e a0 h a c, made_atm e a0 -> ahist e a0 h a -> by_ensemble h ->
  (exists a', aexec e (ASet c) a = (Done, a') /\ same_at_all e (exec e (node_call c)) a a' /\ a' = with_nodes (a_nodes a') a) \/
  aexec e (ASet c) a = (Threw, a).
Proof.
  intros e a0 h a c Mk H B. destruct (hist_nodes e a0 h a Mk H B) as (N & _).
  cbn [aexec]. unfold on_all. destruct (on_all_alike e _ (a_nodes a) (alike_set e c) N) as [[X _]|[_ X]].
  - left. rewrite X. eexists. split; [reflexivity|]. split; [|reflexivity].
    unfold same_at_all. cbn [with_nodes a_nodes].
    apply (each_all (fun s s' => exists ev, exec e (node_call c) s = (Done, s', ev)) _ _ _ _ X). intros j s s' ev Hs Hf. eauto.
  - right. rewrite X. rewrite with_nodes_eq. reflexivity.
Qed.
(** The medium, the cross sections and the step go to all nodes and are never refused. *)
Theorem c62_medium : forall e a b, exists a', aexec e (AEarth b) a = (Done, a') /\ a_earth a' = b /\
  same_at_all e (set_body b) a a' /\ Forall (fun s => q_body s = b) (a_nodes a').
Proof.
  intros e a b. cbn [aexec]. unfold on_all. rewrite each_done by reflexivity. eexists. split; [reflexivity|]. split; [reflexivity|].
  unfold same_at_all. cbn. split.
  - induction (a_nodes a) as [|s l IH]; cbn; constructor; [exists []; reflexivity|exact IH].
  - apply Forall_forall. intros s Hs. apply in_map_iff in Hs. destruct Hs as (u & <- & _). reflexivity.
Qed.
Theorem c62_cross_sections : forall e a x, exists a', aexec e (AXs x) a = (Done, a') /\ a_ncs a' = x /\
  same_at_all e (set_xs x) a a' /\ Forall (fun s => i_ncs (q_ints s) = x) (a_nodes a').
Proof.
  intros e a x. cbn [aexec]. unfold on_all. rewrite each_done by reflexivity. eexists. split; [reflexivity|]. split; [reflexivity|].
  unfold same_at_all. cbn. split.
  - induction (a_nodes a) as [|s l IH]; cbn; constructor; [exists []; reflexivity|exact IH].
  - apply Forall_forall. intros s Hs. apply in_map_iff in Hs. destruct Hs as (u & <- & _). reflexivity.
Qed.
Theorem c62_step : forall e a hs, exists a', aexec e (AStep hs) a = (Done, a') /\
  Forall2 (fun s s' => s' = put_sq_h hs s) (a_nodes a) (a_nodes a').
Proof.
  intros e a hs. cbn [aexec]. unfold on_all. rewrite each_done by reflexivity. eexists. split; [reflexivity|]. cbn.
  induction (a_nodes a) as [|s l IH]; cbn; constructor; [reflexivity|exact IH].
Qed.
(** So an accepted mixing angle, phase or mass difference is what every node reports. *)
Theorem c62_reported : forall e a a' s,  In s (a_nodes a') ->
  (forall i j v, aexec e (ASet (BAngle i j v)) a = (Done, a') -> p_angle (q_pars s) i j = v) /\
  (forall i j v, aexec e (ASet (BPhase i j v)) a = (Done, a') -> p_phase (q_pars s) i j = v) /\
  (forall i v, aexec e (ASet (BDm i v)) a = (Done, a') -> p_dm (q_pars s) i = v).
Proof.
  intros e a a' s Hs.
  assert (X : forall m, on_all m a = (Done, a') -> exists u, out_res (m u) = Done /\ out_obj (m u) = s).
  { intros m. unfold on_all. destruct (each _ 0 (a_nodes a)) as [r l] eqn:E. intro H. injection H as -> <-. cbn in Hs.
    pose proof (each_all (fun s s' => exists ev, m s = (Done, s', ev)) _ _ _ _ E ltac:(intros j u u' ev _ Hf; exists ev; exact Hf)) as F.
    clear E. induction F as [|x y l1 l2 [ev Hx] F IH]; [destruct Hs|]. destruct Hs as [<-|Hs]; [exists x; rewrite Hx; auto|auto]. }
  repeat split; intros; match goal with H : aexec _ _ _ = _ |- _ => cbn [aexec node_call exec] in H; destruct (X _ H) as (u & R & <-) end.
  - destruct (set_angle_cases e i j v u) as [Z|(_ & _ & _ & Z)]; rewrite Z in *; [discriminate|]. cbn.
    unfold upd2. rewrite !Nat.eqb_refl. reflexivity.
  - destruct (set_phase_cases e i j v u) as [Z|(_ & _ & _ & Z)]; rewrite Z in *; [discriminate|]. cbn.
    unfold upd2. rewrite !Nat.eqb_refl. reflexivity.
  - destruct (set_dm_cases e i v u) as [Z|(_ & _ & Z)]; rewrite Z in *; [discriminate|]. cbn.
    unfold upd1. rewrite !Nat.eqb_refl. reflexivity.
Qed.
Example c62_nonvacuous : exists a0 h a a' s, made_atm wenv a0 /\ ahist wenv a0 h a /\ by_ensemble h /\
  aexec wenv (ASet (BAngle 0 1 (1 / 2))) a = (Done, a') /\ In s (a_nodes a') /\ length (a_nodes a') = 2%nat.
Proof.
  destruct (two_ready wenv ltac:(cbn; lia)) as (a0 & a & Mk & I & A1 & A2 & A3 & F & N & Q & s1 & s2 & L).
  exists a0, [(AInit3 2 2 3 (fun _ _ _ => 1) BFlavor, Done)], a. rewrite Forall_forall in Q.
  assert (E : aexec wenv (ASet (BAngle 0 1 (1 / 2))) a =
    (Done, with_nodes (map (fun s => out_obj (exec wenv (CAngle 0 1 (1 / 2)) s)) (a_nodes a)) a)).
  { cbn [aexec node_call]. unfold on_all. rewrite each_done; [reflexivity|].
    intros s Hs. cbn [exec]. rewrite angle_ok; [reflexivity|lia|lia|rewrite (Q s Hs); lia|cbn; lia]. }
  eexists. eexists. split; [exact Mk|]. split; [econstructor; [constructor|exact I|discriminate]|].
  split; [intros c r [X|[]]; injection X as <- <-; reflexivity|]. split; [exact E|]. cbn. rewrite L. split; [left; reflexivity|reflexivity].
Qed.

(** Set_EarthModel leaves the trajectories alone: they are those of the Earth the ensemble was made with. *)
Theorem c62_earth_tracks_refuted : exists e a0 a b, made_atm e a0 /\ ahist e a0 [(AEarth b, Done)] a /\ a_earth a0 <> b /\ a_earth a = b /\
  map q_track (a_nodes a) = map q_track (a_nodes a0) /\ map q_offset (a_nodes a) = map q_offset (a_nodes a0).
Proof.
  destruct (two_ready wenv ltac:(cbn; lia)) as (a0 & a & Mk & _ & _).
  assert (Z : exists b, a_earth a0 <> Some b).
  { destruct (a_earth a0) as [[[|n] c]|]; [exists (Body 1 true)|exists (Body 0 true)|exists rock]; discriminate. }
  destruct Z as [b Zb]. exists wenv, a0.
  destruct (c62_medium wenv a0 (Some b)) as (a' & E & Eb & S & _). exists a', (Some b).
  split; [exact Mk|]. split; [econstructor; [constructor|exact E|discriminate]|]. split; [exact Zb|]. split; [exact Eb|].
  unfold same_at_all in S. split.
  - induction S as [|s s' l l' [ev X] S IH]; [reflexivity|]. cbn. rewrite IH. injection X as <- _. reflexivity.
  - induction S as [|s s' l l' [ev X] S IH]; [reflexivity|]. cbn. rewrite IH. injection X as <- _. reflexivity.
Qed.

(** Set_h with an index documents it as an energy index, takes it as a zenith index and does not check it. *)
Theorem c62_step_at_refuted : exists a0 a i hs, made_atm wenv a0 /\
  ahist wenv a0 [(AInit3 2 2 3 (fun _ _ _ => 1) BFlavor, Done)] a /\ aexec wenv (AStepAt hs i) a = (Undef OutOfBounds, a).
Proof.
  destruct (two_ready wenv ltac:(cbn; lia)) as (a0 & a & Mk & I & A1 & A2 & A3 & F & N & Q & s1 & s2 & L).
  exists a0, a, 2%nat, 1. split; [exact Mk|]. split; [econstructor; [constructor|exact I|discriminate]|].
  cbn [aexec]. rewrite L. reflexivity.
Qed.
Print Assumptions c62_settings.
Print Assumptions c62_applied.
Print Assumptions c62_medium.
Print Assumptions c62_cross_sections.
Print Assumptions c62_step.
Print Assumptions c62_reported.
Print Assumptions c62_earth_tracks_refuted.
Print Assumptions c62_step_at_refuted.

(** ** C73: nothing is evolved without a state *)

(** A new ensemble has no state, yet EvolveState does not refuse it: iinistate is never initialised, so the check itself reads
    an indeterminate value. *)
Theorem c73_new_object_refuted : forall e a, made_atm e a -> aexec e AEvolve a = (Undef Uninit, a).
Proof.
  intros e a Mk. destruct (made_ok e a Mk) as (_ & _ & _ & _ & _ & I & _). cbn [aexec]. unfold a_evolve, a_guard. rewrite I. reflexivity.
Qed.
Example c73_new_object_nonvacuous : exists a, made_atm wenv a.
Proof. destruct (two_ready wenv ltac:(cbn; lia)) as (a0 & _ & Mk & _). eauto. Qed.

(** Setting the state is all or nothing: every node gets one, or the call throws and nothing changes. *)
Theorem c73_set_state : forall e a0 h a, made_atm e a0 -> ahist e a0 h a -> by_ensemble h ->
  forall c, (exists d0 d1 d2 v b, c = AInit3 d0 d1 d2 v b) \/ (exists d0 d1 d2 d3 v b, c = AInit4 d0 d1 d2 d3 v b) ->
  (exists l, aexec e c a = (Done, with_ini true (with_nodes l a)) /\ length l = length (a_nodes a) /\
     Forall (fun s => has_all s = true /\ exists t, q_track s = Some t /\ q_x s = tr_ini t /\ sq_t (q_sq s) = tr_ini t) l) \/
  aexec e c a = (Threw, a).
Proof.
  intros e a0 h a Mk H B c Hc. destruct (hist_nodes e a0 h a Mk H B) as (N & Ne & _).
  assert (I : is_node c = false) by (destruct Hc as [(d0 & d1 & d2 & v & b & ->)|(d0 & d1 & d2 & d3 & v & b & ->)]; reflexivity).
  pose proof (aexec_nodes e c a I N) as N2. pose proof (aexec_frame e c a) as Fr.
  assert (X : (exists l, aexec e c a = (Done, with_ini true (with_nodes l a)) /\ Forall fresh_state l) \/ aexec e c a = (Threw, a)).
  { destruct Hc as [(d0 & d1 & d2 & v & b & ->)|(d0 & d1 & d2 & d3 & v & b & ->)]; cbn [aexec].
    - apply init_all_or_nothing3; assumption.
    - apply init_all_or_nothing4; assumption. }
  destruct X as [(l & X & F)|X]; [left|right; exact X]. exists l. split; [exact X|]. rewrite X in N2, Fr. cbn in N2.
  unfold frame_of in Fr. cbn in Fr. injection Fr as Fr. split; [exact Fr|]. destruct N2 as [N2 _]. rewrite Forall_forall in *.
  intros s Hs. destruct (F s Hs) as (F1 & t & F2 & F3 & F4 & F5). destruct (N2 s Hs) as [_ _ B1 B2 B3 _]. split; [|eauto].
  unfold has_all. rewrite B1, B2, B3, F1. reflexivity.
Qed.

(** An array whose extents do not fit, or the wrong kind of array, is refused. *)
Theorem c73_extents : forall e a0 h a, made_atm e a0 -> ahist e a0 h a -> by_ensemble h -> forall s, In s (a_nodes a) ->
  (forall d0 d1 d2 v b, aexec e (AInit3 d0 d1 d2 v b) a <> (Threw, a) ->
     d0 = length (a_cos a) /\ d1 = length (a_E a) /\ d1 = q_ne s /\ d2 = q_numneu s /\ q_nt s <> Both /\ b <> BInter) /\
  (forall d0 d1 d2 d3 v b, aexec e (AInit4 d0 d1 d2 d3 v b) a <> (Threw, a) ->
     d0 = length (a_cos a) /\ d1 = q_ne s /\ d2 = q_nrhos s /\ d3 = q_numneu s /\ q_nt s = Both /\ b <> BInter).
Proof.
  intros e a0 h a Mk H B s Hs. destruct (hist_nodes e a0 h a Mk H B) as ((N & S) & Ne & _). rewrite Forall_forall in N.
  split.
  - intros d0 d1 d2 v b. cbn [aexec]. unfold a_init3.
    destruct (Nat.eqb_spec d0 (length (a_cos a))) as [->|]; [|intro X; exfalso; apply X; reflexivity].
    destruct (Nat.eqb_spec d1 (length (a_E a))) as [E1|]; [|intro X; exfalso; apply X; reflexivity]. cbn [negb].
    intro X. split; [reflexivity|]. split; [exact E1|].
    assert (Z : forall u w, In u (a_nodes a) -> init_state2 e d1 d2 w b u <> (Threw, u, [])).
    { intros u w Hu Z. apply X. unfold a_fill. destruct (a_nodes a) as [|s0 l] eqn:En; [congruence|].
      destruct (init2_cases e d1 d2 w b u (N u Hu) s0 (S u s0 Hu (or_introl eq_refl)) (N s0 (or_introl eq_refl)) (v 0%nat)) as [R1 _].
      rewrite Z in R1. cbn in R1.
      destruct (init2_cases e d1 d2 (v 0%nat) b s0 (N s0 (or_introl eq_refl)) s0 (same_refl s0) (N s0 (or_introl eq_refl)) (v 0%nat)) as [_ [D|T]]; [congruence|].
      rewrite each_first by (rewrite T; discriminate). rewrite T. cbn. rewrite <- En, with_nodes_eq. reflexivity. }
    specialize (Z s (fun _ _ => 0) Hs). unfold init_state2, read in Z. rewrite checks_eq in Z. cbn [existsb] in Z.
    destruct (Nat.eqb (d1 * d2) 0); [exfalso; apply Z; reflexivity|].
    destruct (Nat.eqb_spec d1 (q_ne s)); [|exfalso; apply Z; reflexivity].
    destruct (Nat.eqb_spec d2 (q_numneu s)); [|exfalso; apply Z; reflexivity].
    destruct b; [|exfalso; apply Z; reflexivity|]; (destruct (q_nt s); [| |exfalso; apply Z; reflexivity]); repeat split; auto; discriminate.
  - intros d0 d1 d2 d3 v b. cbn [aexec]. unfold a_init4.
    destruct (Nat.eqb_spec d0 (length (a_cos a))) as [->|]; [|intro X; exfalso; apply X; reflexivity]. cbn [negb].
    intro X. split; [reflexivity|].
    assert (Z : forall u w, In u (a_nodes a) -> init_state3 e d1 d2 d3 w b u <> (Threw, u, [])).
    { intros u w Hu Z. apply X. unfold a_fill. destruct (a_nodes a) as [|s0 l] eqn:En; [congruence|].
      destruct (init3_cases e d1 d2 d3 w b u (N u Hu) s0 (S u s0 Hu (or_introl eq_refl)) (N s0 (or_introl eq_refl)) (v 0%nat)) as [R1 _].
      rewrite Z in R1. cbn in R1.
      destruct (init3_cases e d1 d2 d3 (v 0%nat) b s0 (N s0 (or_introl eq_refl)) s0 (same_refl s0) (N s0 (or_introl eq_refl)) (v 0%nat)) as [_ [D|T]]; [congruence|].
      rewrite each_first by (rewrite T; discriminate). rewrite T. cbn. rewrite <- En, with_nodes_eq. reflexivity. }
    specialize (Z s (fun _ _ _ => 0) Hs). unfold init_state3, read in Z. rewrite checks_eq in Z. cbn [existsb] in Z.
    destruct (Nat.eqb (d1 * d2 * d3) 0); [exfalso; apply Z; reflexivity|].
    destruct (Nat.eqb_spec d1 (q_ne s)); [|exfalso; apply Z; reflexivity].
    destruct (Nat.eqb_spec d2 (q_nrhos s)); [|exfalso; apply Z; reflexivity].
    destruct (Nat.eqb_spec d3 (q_numneu s)); [|exfalso; apply Z; reflexivity].
    destruct b; [|exfalso; apply Z; reflexivity|]; (destruct (q_nt s); [exfalso; apply Z; reflexivity|exfalso; apply Z; reflexivity|]); repeat split; auto; discriminate.
Qed.

(** One after the other, nodes whose state is gone are not evolved: EvolveState does not return normally. *)
Theorem c73_stale_state : forall e a s, a_threads a = Some 1%nat -> In s (a_nodes a) -> f_state (q_flags s) = false ->
  fst (aexec e AEvolve a) <> Done.
Proof.
  intros e a s K Hs Fs. cbn [aexec]. unfold a_evolve. destruct (a_guard a); try discriminate.
  pose proof (share_but_ints e a) as F.
  assert (Sh : a_threads (snd (share_tables e a)) = a_threads a).
  { unfold share_tables. destruct (a_nodes a) as [|s0 rest] eqn:En; [reflexivity|].
    destruct (o_int (q_opts s0)); [|reflexivity]. destruct (init_interactions e s0) as [[r s0'] ev].
    destruct r; try reflexivity. destruct (each _ 0 (s0' :: rest)) as [r l]. reflexivity. }
  destruct (share_tables e a) as [r a1]. cbn in F, Sh. destruct r; try discriminate. rewrite Sh, K. cbn [Nat.eqb].
  assert (X : exists s', In s' (a_nodes a1) /\ f_state (q_flags s') = false).
  { clear -F Hs Fs. induction F as [|x y l l' Hxy F IH]; [destruct Hs|]. destruct Hs as [->|Hs].
    - exists y. split; [left; reflexivity|]. change (q_flags y) with (q_flags (but_ints y)). rewrite Hxy. exact Fs.
    - destruct (IH Hs) as (s' & A & B). exists s'. split; [right; exact A|exact B]. }
  destruct X as (s' & Hs' & Fs'). destruct (evolve_serial e (a_nodes a1)) as [r l] eqn:E. cbn. intro D. subst r.
  assert (R : out_res (evolve_state e s') = Done).
  { apply (each_res (evolve_state e) (a_nodes a1) 0); [unfold evolve_serial in E; rewrite E; reflexivity|exact Hs']. }
  unfold evolve_state, read in R. destruct (q_body s'); [|discriminate]. destruct (negb _); [discriminate|].
  destruct (q_track s'); [|discriminate]. destruct (negb _); [discriminate|]. rewrite Fs' in R. discriminate.
Qed.
(** Changing a mixing parameter makes the states of all nodes stale. *)
Theorem c73_invalidated : forall e a a' c, (exists i j v, c = BAngle i j v) \/ (exists i j v, c = BPhase i j v) \/ (exists i v, c = BDm i v) ->
  aexec e (ASet c) a = (Done, a') -> Forall (fun s => f_state (q_flags s) = false) (a_nodes a').
Proof.
  intros e a a' c Hc. cbn [aexec]. unfold on_all. destruct (each _ 0 (a_nodes a)) as [r l] eqn:E. intro H. injection H as -> <-. cbn.
  pose proof (each_all (fun s s' => exists ev, exec e (node_call c) s = (Done, s', ev)) _ _ _ _ E
    ltac:(intros j u u' ev _ Hf; exists ev; exact Hf)) as F. clear E.
  induction F as [|x y l1 l2 [ev Hx] F IH]; constructor; [|exact IH].
  destruct Hc as [(i & j & v & ->)|[(i & j & v & ->)|(i & v & ->)]]; cbn [node_call exec] in Hx.
  - destruct (set_angle_cases e i j v x) as [Z|(_ & _ & _ & Z)]; rewrite Z in Hx; [discriminate|]. injection Hx as <- _. reflexivity.
  - destruct (set_phase_cases e i j v x) as [Z|(_ & _ & _ & Z)]; rewrite Z in Hx; [discriminate|]. injection Hx as <- _. reflexivity.
  - destruct (set_dm_cases e i v x) as [Z|(_ & _ & Z)]; rewrite Z in Hx; [discriminate|]. injection Hx as <- _. reflexivity.
Qed.
(** What was moved from is refused, if its flag was ever set. *)
Theorem c73_moved_from : forall e a, a_ini a <> None -> aexec e AEvolve (a_moved_from a) = (Threw, a_moved_from a).
Proof. intros e a H. cbn [aexec]. unfold a_evolve, a_guard. cbn. destruct (a_ini a) as [[|]|]; [reflexivity|reflexivity|congruence]. Qed.
Example c73_nonvacuous : exists a0 h a s a', made_atm wenv a0 /\ ahist wenv a0 h a /\ by_ensemble h /\ In s (a_nodes a) /\
  a_ini a <> None /\ aexec wenv (AInit3 2 2 3 (fun _ _ _ => 1) BFlavor) a0 = (Done, a) /\
  aexec wenv (ASet (BAngle 0 1 (1 / 2))) a = (Done, a') /\ a_threads a' = Some 1%nat /\ a_nodes a' <> [].
Proof.
  destruct (two_ready wenv ltac:(cbn; lia)) as (a0 & a & Mk & I & A1 & A2 & A3 & F & N & Q & s1 & s2 & L).
  exists a0, [(AInit3 2 2 3 (fun _ _ _ => 1) BFlavor, Done)], a, s1. rewrite Forall_forall in Q.
  assert (E : aexec wenv (ASet (BAngle 0 1 (1 / 2))) a =
    (Done, with_nodes (map (fun s => out_obj (exec wenv (CAngle 0 1 (1 / 2)) s)) (a_nodes a)) a)).
  { cbn [aexec node_call]. unfold on_all. rewrite each_done; [reflexivity|].
    intros s Hs. cbn [exec]. rewrite angle_ok; [reflexivity|lia|lia|rewrite (Q s Hs); lia|cbn; lia]. }
  eexists. split; [exact Mk|]. split; [econstructor; [constructor|exact I|discriminate]|].
  split; [intros c r [X|[]]; injection X as <- <-; reflexivity|]. split; [rewrite L; left; reflexivity|]. split; [rewrite A1; discriminate|].
  split; [exact I|]. split; [exact E|]. cbn. rewrite L. split; [exact A3|discriminate].
Qed.
Print Assumptions c73_new_object_refuted.
Print Assumptions c73_set_state.
Print Assumptions c73_extents.
Print Assumptions c73_stale_state.
Print Assumptions c73_invalidated.
Print Assumptions c73_moved_from.

(** ** C74: one set of tables *)

(** After EvolveState with interactions every node holds the tables of the ensemble, made by its first node. *)
Theorem c74_shared : forall e a0 h a r a', made_atm e a0 -> ahist e a0 h a -> by_ensemble h ->
  (exists s, In s (a_nodes a) /\ o_int (q_opts s) = true) -> aexec e AEvolve a = (r, a') -> fst (share_tables e a) = Done -> a_guard a = Done ->
  a_tabs a' <> None /\ Forall (fun s => i_tabs (q_ints s) = a_tabs a' /\ i_done (q_ints s) = true) (a_nodes a').
Proof.
  intros e a0 h a r a' Mk H B (s & Hs & OI) E Sd G.
  destruct (hist_nodes e a0 h a Mk H B) as ((_ & S) & Ne & _). pose proof (hist_done_tabs e a0 h a Mk H B) as DT.
  destruct (a_nodes a) as [|s0 rest] eqn:En; [congruence|].
  assert (OI0 : o_int (q_opts s0) = true).
  { pose proof (sm_switches _ _ (S s s0 Hs (or_introl eq_refl))) as W. unfold switches in W. injection W as W1. congruence. }
  inversion DT as [|? ? D0 _]; subst.
  cbn [aexec] in E. unfold a_evolve in E. rewrite G in E.
  destruct (share_tables e a) as [r1 a1] eqn:Sh. cbn in Sd. subst r1.
  destruct (share_holds e a a1 s0 rest En OI0 D0 Sh) as [T F].
  destruct (a_threads a1) as [k|]; [|injection E as _ <-; split; assumption].
  destruct (evolve_holds e (a_tabs a1) (a_nodes a1) F) as [F1 F2].
  destruct (if Nat.eqb k 1 then _ else _) as [r2 l] eqn:El. injection E as _ <-. cbn. split; [exact T|].
  destruct (Nat.eqb k 1); [rewrite El in F1; exact F1|rewrite El in F2; exact F2].
Qed.

(** Two nodes with interactions and no cross sections chosen. *)
Lemma init_fresh e s t : i_done (q_ints s) = false -> e_tau e (q_E s) = true -> i_tabs (q_ints s) = Some t ->
  o_int (q_opts s) = true -> o_tau (q_opts s) = false -> o_gr (q_opts s) = false ->
  init_interactions e s = (Done, put_i_done true (put_i_nc (r4 (q_ne s)) s), []).
Proof.
  intros D ET T OI OT OG. unfold init_interactions. unfold read at 1. rewrite D, ET, T. cbn [negb].
  rewrite seq_eq. unfold ret at 1. rewrite seq_eq. unfold read. rewrite OI, OT, OG. reflexivity.
Qed.
Lemma init_default s x : e_default wenv = Some x -> good_lib x = true -> i_done (q_ints s) = false -> i_tabs (q_ints s) = None ->
  i_ncs (q_ints s) = None -> o_int (q_opts s) = true -> o_tau (q_opts s) = false -> o_gr (q_opts s) = false ->
  exists s' t, init_interactions wenv s = (Done, s', []) /\ i_tabs (q_ints s') = Some t /\ i_ncs (q_ints s') = Some x /\ i_done (q_ints s') = true.
Proof.
  intros X G D T N OI OT OG. unfold init_interactions. unfold read at 1. rewrite D, T. cbn [negb wenv e_tau].
  rewrite seq_eq. rewrite (build_ok wenv s x); [|rewrite N; exact X|exact G].
  rewrite seq_eq. unfold read. cbn [put_i_tabs put_i_ncs set_q_ints q_opts q_ne]. rewrite OI, OT, OG.
  eexists. eexists. split; [reflexivity|]. split; [reflexivity|]. split; reflexivity.
Qed.

Lemma two_shared : exists a0 a s1 s2 a1 s1' s2', made_atm wenv a0 /\
  ahist wenv a0 [(AInit3 2 2 3 (fun _ _ _ => 1) BFlavor, Done)] a /\ a_nodes a = [s1; s2] /\ o_int (q_opts s1) = true /\
  a_guard a = Done /\ a_threads a = Some 1%nat /\ a_ncs a = None /\ share_tables wenv a = (Done, a1) /\ a_nodes a1 = [s1'; s2'] /\ a_ncs a1 = None /\
  i_ncs (q_ints s1') = Some lib1 /\ i_ncs (q_ints s2') = None.
Proof.
  destruct (atm_set_up wenv path pow_grow earth [-1; 1] [1; 2] 3 true None (fun _ _ _ => 1))
    as (a0 & a & Mk & I & A1 & A2 & A3 & L & F & N & Q & _ & X); [lia|cbn; lia|discriminate|discriminate|].
  destruct (a_nodes a) as [|s1 [|s2 [|]]] eqn:En; try discriminate L.
  inversion F as [|? ? [t1 U1] F2]; subst. inversion F2 as [|? ? [t2 U2] _]; subst. destruct U1, U2.
  destruct (init_default s1 lib1 eq_refl eq_refl su_done0 su_tabs0 su_ncs0 su_int0 su_tau0 su_gr0) as (s1' & t & E1 & T1 & X1 & D1).
  assert (E2 : (modify (put_i_tabs (Some t)) ;; init_interactions wenv)%m s1' = (Done, put_i_tabs (Some t) s1', [])).
  { rewrite seq_eq. unfold modify. unfold init_interactions, read.
    change (i_done (q_ints (put_i_tabs (Some t) s1'))) with (i_done (q_ints s1')). rewrite D1. reflexivity. }
  pose proof (init_fresh wenv (put_i_tabs (Some t) s2) t su_done1 eq_refl eq_refl su_int1 su_tau1 su_gr1) as E3.
  assert (E4 : (modify (put_i_tabs (Some t)) ;; init_interactions wenv)%m s2 =
     (Done, put_i_done true (put_i_nc (r4 (q_ne s2)) (put_i_tabs (Some t) s2)), [])).
  { rewrite seq_eq. unfold modify. rewrite E3. reflexivity. }
  exists a0, a, s1, s2. eexists. eexists. eexists.
  split; [exact Mk|]. split; [econstructor; [constructor|exact I|discriminate]|].
  split; [exact En|]. split; [exact su_int0|]. split; [unfold a_guard; rewrite A1, A2; reflexivity|]. split; [exact A3|]. split; [exact X|].
  split.
  { unfold share_tables. rewrite En, su_int0, E1, T1. cbn [each]. rewrite E2, E4. reflexivity. }
  split; [reflexivity|]. split; [exact X|]. split; [exact X1|exact su_ncs1].
Qed.
Example c74_nonvacuous : exists a0 h a, made_atm wenv a0 /\ ahist wenv a0 h a /\ by_ensemble h /\
  (exists s, In s (a_nodes a) /\ o_int (q_opts s) = true) /\ fst (share_tables wenv a) = Done /\ a_guard a = Done.
Proof.
  destruct two_shared as (a0 & a & s1 & s2 & a1 & s1' & s2' & Mk & H & En & OI & G & _ & _ & Sh & _).
  exists a0, [(AInit3 2 2 3 (fun _ _ _ => 1) BFlavor, Done)], a. split; [exact Mk|]. split; [exact H|].
  split; [intros c r [X|[]]; injection X as <- <-; reflexivity|].
  split; [exists s1; rewrite En; split; [left; reflexivity|exact OI]|]. rewrite Sh. auto.
Qed.
Print Assumptions c74_shared.

(** The default cross sections, though, are loaded by the first node only: when the tables have been made, the other nodes and
    the ensemble itself still have none (EvolveState makes no other change to them). *)
Lemma evolve_ncs e s : i_done (q_ints s) = true -> i_ncs (q_ints (out_obj (evolve_state e s))) = i_ncs (q_ints s).
Proof.
  intro D. set (V := fun s => i_ncs (q_ints s)). change (V (out_obj (evolve_state e s)) = V s).
  destruct (q_body s) as [b|] eqn:B; [|unfold evolve_state, read; rewrite B; auto].
  destruct (q_track s) as [t|] eqn:T.
  2:{ unfold evolve_state, read. rewrite B, T. destruct (negb _); auto. }
  rewrite (evolve_state_eq e b t s B T). destruct (has_all s); [|auto].
  rewrite seq_eq. unfold prep, read. rewrite D, andb_false_r. cbn [negb].
  assert (K : stable (keeps V) (tail_ e b t s)) by (apply tail_keeps; try reflexivity).
  unfold when at 1. rewrite seq_eq. unfold ret at 1. rewrite seq_eq.
  destruct (negb (o_osc (q_opts s)) && o_int (q_opts s)), (rlt (tr_fin t) (tr_ini t)); unfold when, modify, ret; cbv iota beta;
    match goal with |- context [tail_ e b t s ?s1] => specialize (K s1); unfold keeps in K;
      destruct (tail_ e b t s s1) as [[r s2] e2] end; exact K.
Qed.
Theorem c62_default_library_refuted : exists a0 h a r a' s1 s2, made_atm wenv a0 /\ ahist wenv a0 h a /\ by_ensemble h /\
  aexec wenv AEvolve a = (r, a') /\ a_nodes a' = [s1; s2] /\
  i_ncs (q_ints s1) = Some lib1 /\ i_ncs (q_ints s2) = None /\ a_ncs a' = None.
Proof.
  destruct two_shared as (a0 & a & u1 & u2 & a1 & s1' & s2' & Mk & H & En & OI & G & Th & _ & Sh & E1 & X1 & N1 & N2).
  assert (Hb : by_ensemble [(AInit3 2 2 3 (fun _ _ _ => 1) BFlavor, Done)]) by (intros c r [X|[]]; injection X as <- <-; reflexivity).
  pose proof (hist_done_tabs wenv a0 _ a Mk H Hb) as DT. rewrite En in DT. inversion DT as [|? ? D0 _]; subst.
  destruct (share_holds wenv a a1 u1 [u2] En OI D0 Sh) as [_ F]. rewrite E1 in F.
  inversion F as [|? ? [_ D1] F2]; subst. inversion F2 as [|? ? [_ D2] _]; subst.
  assert (T1 : a_threads a1 = Some 1%nat).
  { unfold share_tables in Sh. rewrite En, OI in Sh. destruct (init_interactions wenv u1) as [[r v1] ev]. destruct r; try discriminate.
    destruct (each _ 0 (v1 :: [u2])) as [r l]. injection Sh as _ <-. exact Th. }
  pose proof (evolve_ncs wenv s1' D1) as K1. pose proof (evolve_ncs wenv s2' D2) as K2.
  assert (Y : exists r v1 v2, evolve_serial wenv [s1'; s2'] = (r, [v1; v2]) /\ i_ncs (q_ints v1) = Some lib1 /\ i_ncs (q_ints v2) = None).
  { unfold evolve_serial. cbn [each]. destruct (evolve_state wenv s1') as [[r v1] ev]. cbn in K1.
    destruct r; [|do 3 eexists; split; [reflexivity|split; congruence]|do 3 eexists; split; [reflexivity|split; congruence]].
    destruct (evolve_state wenv s2') as [[r v2] ev2]. cbn in K2.
    destruct r; do 3 eexists; (split; [reflexivity|split; congruence]). }
  destruct Y as (r & v1 & v2 & Y & Y1 & Y2).
  exists a0, [(AInit3 2 2 3 (fun _ _ _ => 1) BFlavor, Done)], a, r, (with_nodes [v1; v2] a1), v1, v2.
  split; [exact Mk|]. split; [exact H|]. split; [exact Hb|]. split; [|split; [reflexivity|split; [exact Y1|split; [exact Y2|exact X1]]]].
  cbn [aexec]. unfold a_evolve. rewrite G, Sh, T1. cbn [Nat.eqb]. rewrite E1, Y. reflexivity.
Qed.
Print Assumptions c62_default_library_refuted.
