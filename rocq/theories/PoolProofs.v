From Coq Require Import List Arith Bool Lia Permutation.
From Verif Require Import Err PoolModel.
Import ListNotations.

Definition weight (w : wst) : nat := match w with WExit => 0 | WCheck => 1 | WRun _ => 2 | WWait => 3 end.
Fixpoint wsum (f : wst -> nat) (l : list wst) : nat := match l with [] => 0 | w :: l' => f w + wsum f l' end.
Definition checking (w : wst) : nat := match w with WCheck => 1 | _ => 0 end.

Lemma setw_length l i w : i < length l -> length (setw l i w) = length l.
Proof. intros H. unfold setw. rewrite app_length, firstn_length. cbn [length]. rewrite skipn_length. lia. Qed.
Lemma setw_cons0 x l w : setw (x :: l) 0 w = w :: l.
Proof. reflexivity. Qed.
Lemma setw_consS x l i w : setw (x :: l) (S i) w = x :: setw l i w.
Proof. reflexivity. Qed.
Lemma wsum_setw f l : forall i v w, nth_error l i = Some v -> wsum f (setw l i w) + f v = wsum f l + f w.
Proof.
  induction l as [|x l IH]; intros [|i] v w H; cbn [nth_error] in H; try discriminate.
  - injection H as ->. rewrite setw_cons0. cbn [wsum]. lia.
  - rewrite setw_consS. cbn [wsum]. specialize (IH i v w H). lia.
Qed.
Lemma nth_setw l : forall i j v w, nth_error l i = Some v ->
  nth_error (setw l i w) j = if Nat.eqb j i then Some w else nth_error l j.
Proof.
  induction l as [|x l IH]; intros [|i] j v w H; cbn [nth_error] in H; try discriminate.
  - rewrite setw_cons0. destruct j; reflexivity.
  - rewrite setw_consS. destruct j; [reflexivity|]. cbn [nth_error Nat.eqb]. now apply IH with v.
Qed.
Lemma wsum_wait0 l : existsb is_wait l = false <-> (forall i, nth_error l i <> Some WWait).
Proof.
  induction l as [|x l IH]; cbn.
  - split; [intros _ [|i]; discriminate|reflexivity].
  - rewrite orb_false_iff, IH. split.
    + intros [H1 H2] [|i]; cbn; [intros [= ->]; discriminate|apply H2].
    + intros H. split; [destruct x; trivial; destruct (H 0 eq_refl)|]. intros i. apply (H (S i)).
Qed.
Lemma wsum_wake f l : (f WCheck <= f WWait) -> wsum f (map wake l) <= wsum f l.
Proof. intros H. induction l as [|[| |t|] l IH]; cbn [map wsum wake]; lia. Qed.
Lemma nth_wake l i : nth_error (map wake l) i = option_map wake (nth_error l i).
Proof. apply nth_error_map. Qed.

(** Tasks being run by the workers. *)
Fixpoint running (l : list wst) : list nat :=
  match l with [] => [] | WRun t :: l' => t :: running l' | _ :: l' => running l' end.
Lemma running_setw l : forall i v w, nth_error l i = Some v ->
  Permutation (running (setw l i w) ++ running [v]) (running l ++ running [w]).
Proof.
  induction l as [|x l IH]; intros [|i] v w H; cbn [nth_error] in H; try discriminate.
  - injection H as ->. rewrite setw_cons0.
    replace (running (w :: l)) with (running [w] ++ running l) by (destruct w; reflexivity).
    replace (running (v :: l)) with (running [v] ++ running l) by (destruct v; reflexivity).
    rewrite (Permutation_app_comm (running [w] ++ running l)), <- app_assoc. apply Permutation_app_head, Permutation_app_comm.
  - rewrite setw_consS. specialize (IH i v w H). destruct x; cbn [running app]; trivial. now constructor.
Qed.
Lemma running_nil l : (forall i w, nth_error l i = Some w -> w = WExit) -> running l = [].
Proof.
  induction l as [|x l IH]; intros H; [reflexivity|]. pose proof (H 0 x eq_refl) as ->. cbn. apply IH. intros i. apply (H (S i)).
Qed.
Lemma running_wake l : running (map wake l) = running l.
Proof. induction l as [|[| |t|] l IH]; cbn; congruence. Qed.

Section P.
Context {R : Type}.
Variable body : nat -> outcome R.
Notation step := (pstep body).

Record inv (n : nat) (s : pstate R) : Prop := {
  i_len : length (workers s) = n;
  i_order : started s ++ tasks s = seq 0 (accepted s);
  i_stop : stop s = true <-> dtor s <> DNone;
  i_nowait : stop s = true -> dtor s <> DStopSet -> forall i, nth_error (workers s) i <> Some WWait;
  i_exit : forall i, nth_error (workers s) i = Some WExit -> stop s = true /\ tasks s = [];
  i_wake : (exists i, nth_error (workers s) i = Some WWait) -> length (tasks s) <= notifies s + wsum checking (workers s);
  i_join : forall k, dtor s = DJoin k -> k <= n /\ forall i, i < k -> nth_error (workers s) i = Some WExit;
  i_ret : dtor s = DReturned -> forall i, i < n -> nth_error (workers s) i = Some WExit;
  i_done : Permutation (map fst (futures s) ++ running (workers s)) (started s);
  i_res : forall t r, In (t, r) (futures s) -> r = body t
}.

Lemma inv_init n : inv n (pinit n).
Proof.
  constructor; cbn; try discriminate; auto.
  - apply repeat_length.
  - split; [discriminate|congruence].
  - intros i H. apply nth_error_In in H. apply repeat_spec in H. discriminate.
  - intros [i H]. apply nth_error_In in H. apply repeat_spec in H. discriminate.
  - induction n; cbn; auto.
  - contradiction.
Qed.

Ltac casei i j := destruct (Nat.eqb_spec j i) as [?E|?E].

Lemma inv_step n s a s' : inv n s -> step s a = Some (Ok s') -> inv n s'.
Proof.
  intros [Hl Ho Hs Hn He Hw Hj Hr Hd Hf] H.
  destruct a as [|i| | | | |i|i|i]; cbn [pstep] in H.
  - (* enqueue *)
    destruct (stop s) eqn:Es; [destruct (dtor s); discriminate|].
    destruct (dtor s) eqn:Ed; try discriminate; try (exfalso; assert (false = true) by (apply Hs; discriminate); discriminate).
    injection H as <-. constructor; cbn; trivial; try (rewrite ?Ed; discriminate).
    + rewrite app_assoc, Ho. exact (eq_sym (seq_S (accepted s) 0)).
    + intros i Hi. destruct (He i Hi). discriminate.
    + intros Hx. rewrite app_length. cbn. specialize (Hw Hx). lia.
  - (* notify one *)
    destruct (notifies s) as [|m] eqn:En; [discriminate|]. destruct (nth_error (workers s) i) as [[| | |]|] eqn:Ei; try discriminate.
    injection H as <-. assert (Hi : i < length (workers s)) by (apply nth_error_Some; congruence).
    constructor; cbn; trivial.
    + now rewrite setw_length.
    + intros Hst Hd' j. rewrite (nth_setw _ _ _ _ _ Ei). casei i j; [discriminate|now apply Hn].
    + intros j. rewrite (nth_setw _ _ _ _ _ Ei). casei i j; [discriminate|now apply He].
    + intros _. assert (Hx : exists i, nth_error (workers s) i = Some WWait) by now exists i. specialize (Hw Hx).
      pose proof (wsum_setw checking _ _ _ WCheck Ei). cbn in *. lia.
    + intros k Hk. destruct (Hj k Hk) as [Hk1 Hk2]. split; [exact Hk1|]. intros j Hjk. rewrite (nth_setw _ _ _ _ _ Ei). casei i j; [|auto].
      subst j. rewrite (Hk2 i Hjk) in Ei. discriminate.
    + intros Hk j Hjk. rewrite (nth_setw _ _ _ _ _ Ei). casei i j; [|auto]. subst j. rewrite (Hr Hk i Hjk) in Ei. discriminate.
    + pose proof (running_setw _ _ _ WCheck Ei) as Hp. cbn in Hp. rewrite !app_nil_r in Hp. now rewrite Hp.
  - (* notify, nobody waits *)
    destruct (notifies s) as [|m] eqn:En; [discriminate|]. destruct (existsb is_wait (workers s)) eqn:Ew; [discriminate|].
    injection H as <-. constructor; cbn; trivial. intros [i Hi]. exfalso. now apply (proj1 (wsum_wait0 _) Ew i).
  - (* destroy *)
    destruct (dtor s) eqn:Ed; try discriminate. injection H as <-. constructor; cbn; trivial; try discriminate.
    + split; [discriminate|reflexivity].
    + congruence.
    + intros i Hi. destruct (He i Hi). auto.
  - (* notify all *)
    destruct (dtor s) eqn:Ed; try discriminate. injection H as <-.
    assert (Est : stop s = true) by (apply Hs; discriminate).
    constructor; cbn; trivial; try discriminate.
    + now rewrite map_length.
    + rewrite Est. split; [discriminate|reflexivity].
    + intros _ _ i. rewrite nth_wake. destruct (nth_error (workers s) i) as [[| | |]|]; discriminate.
    + intros i. rewrite nth_wake. destruct (nth_error (workers s) i) as [[| | |]|] eqn:E; try discriminate. intros _. apply (He i E).
    + intros [i Hi]. rewrite nth_wake in Hi. destruct (nth_error (workers s) i) as [[| | |]|]; discriminate.
    + intros k [= <-]. split; [lia|]. intros i Hi. lia.
    + now rewrite running_wake.
  - (* join *)
    destruct (dtor s) as [| |k|] eqn:Ed; try discriminate.
    assert (Est : stop s = true) by (apply Hs; discriminate).
    destruct (Hj k eq_refl) as [Hk1 Hk2].
    destruct (nth_error (workers s) k) as [[| | |]|] eqn:Ek; try discriminate; injection H as <-.
    + constructor; cbn; trivial; try discriminate.
      * rewrite Est. split; [discriminate|reflexivity].
      * intros _ _. apply Hn; trivial. discriminate.
      * intros k' [= <-]. assert (k < length (workers s)) by (apply nth_error_Some; congruence). split; [lia|].
        intros i Hi. destruct (Nat.eq_dec i k) as [->|]; [exact Ek|apply Hk2; lia].
    + constructor; cbn; trivial; try discriminate.
      * rewrite Est. split; [discriminate|reflexivity].
      * intros _ _. apply Hn; trivial. discriminate.
      * intros _ i Hi. apply nth_error_None in Ek. apply Hk2. lia.
  - (* work *)
    destruct (nth_error (workers s) i) as [[| | |]|] eqn:Ei; try discriminate.
    assert (Hi : i < length (workers s)) by (apply nth_error_Some; congruence).
    assert (Hpast : forall w, (forall k, dtor s = DJoin k -> k <= n /\ forall j, j < k -> nth_error (setw (workers s) i w) j = Some WExit) /\
                              (dtor s = DReturned -> forall j, j < n -> nth_error (setw (workers s) i w) j = Some WExit)).
    { intros w. split.
      - intros k Hk. destruct (Hj k Hk) as [Hk1 Hk2]. split; [exact Hk1|]. intros j Hjk. rewrite (nth_setw _ _ _ _ _ Ei). casei i j; [|auto].
        subst j. rewrite (Hk2 i Hjk) in Ei. discriminate.
      - intros Hk j Hjk. rewrite (nth_setw _ _ _ _ _ Ei). casei i j; [|auto]. subst j. rewrite (Hr Hk i Hjk) in Ei. discriminate. }
    destruct (tasks s) as [|t ts] eqn:Et; injection H as <-.
    + constructor; cbn; trivial; try apply Hpast.
      * now rewrite setw_length.
      * intros Hst Hd' j. rewrite (nth_setw _ _ _ _ _ Ei). casei i j; [rewrite Hst; discriminate|now apply Hn].
      * intros j. rewrite (nth_setw _ _ _ _ _ Ei). casei i j; [|now apply He].
        destruct (stop s); [auto|discriminate].
      * intros _. lia.
      * pose proof (running_setw _ _ _ (if stop s then WExit else WWait) Ei) as Hp. destruct (stop s); cbn in Hp; rewrite !app_nil_r in Hp; now rewrite Hp.
    + constructor; cbn; trivial; try apply Hpast.
      * now rewrite setw_length.
      * now rewrite <- app_assoc.
      * intros Hst Hd' j. rewrite (nth_setw _ _ _ _ _ Ei). casei i j; [discriminate|now apply Hn].
      * intros j. rewrite (nth_setw _ _ _ _ _ Ei). casei i j; [discriminate|]. intros Hx. destruct (He j Hx). discriminate.
      * intros [j Hx]. rewrite (nth_setw _ _ _ _ _ Ei) in Hx. revert Hx. casei i j; [discriminate|]. intros Hx.
        specialize (Hw (ex_intro _ j Hx)). pose proof (wsum_setw checking _ _ _ (WRun t) Ei). cbn in *. lia.
      * pose proof (running_setw _ _ _ (WRun t) Ei) as Hp. cbn in Hp. rewrite app_nil_r in Hp. rewrite Hp, app_assoc. now apply Permutation_app_tail.
  - (* finish *)
    destruct (nth_error (workers s) i) as [[| |t|]|] eqn:Ei; try discriminate. injection H as <-.
    assert (Hi : i < length (workers s)) by (apply nth_error_Some; congruence).
    constructor; cbn; trivial.
    + now rewrite setw_length.
    + intros Hst Hd' j. rewrite (nth_setw _ _ _ _ _ Ei). casei i j; [discriminate|now apply Hn].
    + intros j. rewrite (nth_setw _ _ _ _ _ Ei). casei i j; [discriminate|now apply He].
    + intros [j Hx]. rewrite (nth_setw _ _ _ _ _ Ei) in Hx. revert Hx. casei i j; [discriminate|]. intros Hx.
      specialize (Hw (ex_intro _ j Hx)). pose proof (wsum_setw checking _ _ _ WCheck Ei). cbn in *. lia.
    + intros k Hk. destruct (Hj k Hk) as [Hk1 Hk2]. split; [exact Hk1|]. intros j Hjk. rewrite (nth_setw _ _ _ _ _ Ei). casei i j; [|auto].
      subst j. rewrite (Hk2 i Hjk) in Ei. discriminate.
    + intros Hk j Hjk. rewrite (nth_setw _ _ _ _ _ Ei). casei i j; [|auto]. subst j. rewrite (Hr Hk i Hjk) in Ei. discriminate.
    + rewrite map_app. cbn. pose proof (running_setw _ _ _ WCheck Ei) as Hp. cbn in Hp. rewrite app_nil_r in Hp.
      rewrite <- Hd, <- Hp, <- app_assoc. apply Permutation_app_head. apply Permutation_app_comm.
    + intros t' r Hin. apply in_app_or in Hin. destruct Hin as [Hin|[Heq|[]]]; [now apply Hf|congruence].
  - (* spurious *)
    destruct (nth_error (workers s) i) as [[| | |]|] eqn:Ei; try discriminate.
    injection H as <-. assert (Hi : i < length (workers s)) by (apply nth_error_Some; congruence).
    constructor; cbn; trivial.
    + now rewrite setw_length.
    + intros Hst Hd' j. rewrite (nth_setw _ _ _ _ _ Ei). casei i j; [discriminate|now apply Hn].
    + intros j. rewrite (nth_setw _ _ _ _ _ Ei). casei i j; [discriminate|now apply He].
    + intros _. assert (Hx : exists i, nth_error (workers s) i = Some WWait) by now exists i. specialize (Hw Hx).
      pose proof (wsum_setw checking _ _ _ WCheck Ei). cbn in *. lia.
    + intros k Hk. destruct (Hj k Hk) as [Hk1 Hk2]. split; [exact Hk1|]. intros j Hjk. rewrite (nth_setw _ _ _ _ _ Ei). casei i j; [|auto].
      subst j. rewrite (Hk2 i Hjk) in Ei. discriminate.
    + intros Hk j Hjk. rewrite (nth_setw _ _ _ _ _ Ei). casei i j; [|auto]. subst j. rewrite (Hr Hk i Hjk) in Ei. discriminate.
    + pose proof (running_setw _ _ _ WCheck Ei) as Hp. cbn in Hp. rewrite !app_nil_r in Hp. now rewrite Hp.
Qed.

Lemma reach_inv n s : reach body n s -> inv n s.
Proof. induction 1 as [|s a s' _ IH Hs]; [apply inv_init|now apply inv_step with s a]. Qed.

(** *** Consequences *)
Lemma started_once n s : reach body n s -> NoDup (started s) /\ started s = seq 0 (length (started s)) /\ length (started s) + length (tasks s) = accepted s.
Proof.
  intros H. destruct (reach_inv n s H) as [_ Ho _ _ _ _ _ _ _ _].
  assert (Hlen : length (started s) + length (tasks s) = accepted s) by (rewrite <- app_length, Ho; apply seq_length).
  assert (Hst : started s = seq 0 (length (started s))).
  { pose proof (f_equal (firstn (length (started s))) Ho) as Hf. rewrite firstn_app, Nat.sub_diag, firstn_all, app_nil_r in Hf.
    rewrite Hf at 1. rewrite <- Hlen, seq_app, firstn_app, seq_length, Nat.sub_diag. cbn. rewrite app_nil_r.
    rewrite firstn_all2; [reflexivity|rewrite seq_length; lia]. }
  split; [rewrite Hst; apply seq_NoDup|]. split; [exact Hst|exact Hlen].
Qed.

Lemma all_run n s : reach body n s -> 0 < n -> dtor s = DReturned ->
  started s = seq 0 (accepted s) /\ (forall t, t < accepted s -> In (t, body t) (futures s)) /\ NoDup (map fst (futures s)).
Proof.
  intros H Hn Hd. pose proof (started_once n s H) as (Hnd & _ & _). destruct (reach_inv n s H) as [Hl Ho Hs _ He _ _ Hr Hp Hf].
  assert (Hex : forall i w, nth_error (workers s) i = Some w -> w = WExit).
  { intros i w Hw. assert (i < n) by (rewrite <- Hl; apply nth_error_Some; congruence). rewrite (Hr Hd i) in Hw by assumption. congruence. }
  destruct (He 0 (Hr Hd 0 Hn)) as [_ Ht]. rewrite Ht, app_nil_r in Ho. rewrite (running_nil _ Hex), app_nil_r in Hp.
  split; [exact Ho|]. split.
  - intros t Hlt. assert (Hin : In t (map fst (futures s))) by (rewrite Hp, Ho; apply in_seq; lia).
    apply in_map_iff in Hin. destruct Hin as ([t' r] & Heq & Hin). cbn in Heq. subst t'. now rewrite <- (Hf t r Hin).
  - eapply Permutation_NoDup; [symmetry; exact Hp|exact Hnd].
Qed.

Lemma no_accept_after_stop n s : reach body n s -> stop s = true -> step s AEnqueue = Some (Throw RuntimeError) \/ dtor s = DReturned.
Proof. intros H Hs. cbn [pstep]. rewrite Hs. destruct (dtor s); auto. Qed.

(** The pool's own actions: not calls by clients, not spurious wakeups. *)
Definition internal (a : pact) : bool := match a with AEnqueue | ADestroy | ASpurious _ => false | _ => true end.
Definition measure (s : pstate R) : nat :=
  3 * length (tasks s) + wsum weight (workers s) + notifies s +
  match dtor s with DNone | DStopSet => length (workers s) + 2 | DJoin k => length (workers s) + 1 - k | DReturned => 0 end.

Lemma internal_decreases n s a s' : reach body n s -> stop s = true -> internal a = true -> step s a = Some (Ok s') ->
  measure s' < measure s /\ stop s' = true.
Proof.
  intros Hr Hst Hi H. destruct (reach_inv n s Hr) as [Hl _ _ _ _ _ Hj _ _ _]. unfold measure.
  destruct a as [|i| | | | |i|i|i]; cbn in Hi; try discriminate; cbn [pstep] in H.
  - destruct (notifies s) as [|m] eqn:En; [discriminate|]. destruct (nth_error (workers s) i) as [[| | |]|] eqn:Ei; try discriminate.
    injection H as <-. cbn. pose proof (wsum_setw weight _ _ _ WCheck Ei) as Hw. cbn [weight] in Hw.
    rewrite setw_length by (apply nth_error_Some; congruence). split; [lia|exact Hst].
  - destruct (notifies s) as [|m] eqn:En; [discriminate|]. destruct (existsb is_wait (workers s)); [discriminate|]. injection H as <-. cbn. split; [lia|exact Hst].
  - destruct (dtor s) eqn:Ed; try discriminate. injection H as <-. cbn. rewrite map_length.
    assert (Hw : wsum weight (map wake (workers s)) <= wsum weight (workers s)) by (apply wsum_wake; cbn; lia). split; [lia|exact Hst].
  - destruct (dtor s) as [| |k|] eqn:Ed; try discriminate. destruct (Hj k eq_refl) as [Hk _].
    destruct (nth_error (workers s) k) as [[| | |]|] eqn:Ek; try discriminate; injection H as <-; cbn.
    + assert (k < length (workers s)) by (apply nth_error_Some; congruence). split; [lia|exact Hst].
    + split; [lia|exact Hst].
  - destruct (nth_error (workers s) i) as [[| | |]|] eqn:Ei; try discriminate.
    assert (Hlt : i < length (workers s)) by (apply nth_error_Some; congruence).
    destruct (tasks s) as [|t ts] eqn:Et; injection H as <-; cbn; rewrite ?Hst, setw_length by exact Hlt.
    + pose proof (wsum_setw weight _ _ _ WExit Ei) as Hw. cbn [weight] in Hw. split; [lia|reflexivity].
    + pose proof (wsum_setw weight _ _ _ (WRun t) Ei) as Hw. cbn [weight] in Hw. split; [lia|reflexivity].
  - destruct (nth_error (workers s) i) as [[| |t|]|] eqn:Ei; try discriminate. injection H as <-. cbn.
    pose proof (wsum_setw weight _ _ _ WCheck Ei) as Hw. cbn [weight] in Hw.
    rewrite setw_length by (apply nth_error_Some; congruence). split; [lia|exact Hst].
Qed.

Lemma internal_enabled n s : reach body n s -> stop s = true -> dtor s <> DReturned ->
  exists a s', internal a = true /\ step s a = Some (Ok s').
Proof.
  intros Hr Hst Hd. destruct (reach_inv n s Hr) as [Hl _ Hs Hnw _ _ Hj _ _ _].
  destruct (dtor s) as [| |k|] eqn:Ed; [|..].
  - exfalso. now apply (proj1 Hs Hst).
  - exists ANotifyAll. eexists. split; [reflexivity|]. cbn. rewrite Ed. reflexivity.
  - destruct (nth_error (workers s) k) as [[| |t|]|] eqn:Ek.
    + exists (AWork k). destruct (tasks s) eqn:Et; eexists; (split; [reflexivity|]); cbn; rewrite Ek, Et; reflexivity.
    + exfalso. apply (Hnw Hst ltac:(discriminate) k Ek).
    + exists (AFinish k). eexists. split; [reflexivity|]. cbn. rewrite Ek. reflexivity.
    + exists AJoin. eexists. split; [reflexivity|]. cbn. rewrite Ed, Ek. reflexivity.
    + exists AJoin. eexists. split; [reflexivity|]. cbn. rewrite Ed, Ek. reflexivity.
  - congruence.
Qed.

(** A run of internal actions. *)
Inductive irun : pstate R -> nat -> pstate R -> Prop :=
| irun0 s : irun s 0 s
| irunS s a s1 k s2 : internal a = true -> step s a = Some (Ok s1) -> irun s1 k s2 -> irun s (S k) s2.

Lemma irun_bound n s k s' : irun s k s' -> reach body n s -> stop s = true -> k + measure s' <= measure s /\ reach body n s' /\ stop s' = true.
Proof.
  induction 1 as [|s a s1 k s2 Hi Hs Hrun IH]; intros Hr Hst; [auto|].
  destruct (internal_decreases n s a s1 Hr Hst Hi Hs) as [Hm Hst1].
  destruct IH as (H1 & H2 & H3); [now apply reach_ok with s a|exact Hst1|]. split; [lia|auto].
Qed.
Lemma shutdown_completes n : forall m s, reach body n s -> stop s = true -> measure s <= m ->
  exists k s', irun s k s' /\ dtor s' = DReturned.
Proof.
  induction m as [|m IH]; intros s Hr Hst Hm.
  - assert (Hd : {dtor s = DReturned} + {dtor s <> DReturned}) by (destruct (dtor s); auto; right; discriminate).
    destruct Hd as [Hd|Hd]; [exists 0, s; split; [constructor|exact Hd]|].
    destruct (internal_enabled n s Hr Hst Hd) as (a & s' & Hi & Hs). destruct (internal_decreases n s a s' Hr Hst Hi Hs). lia.
  - assert (Hd : {dtor s = DReturned} + {dtor s <> DReturned}) by (destruct (dtor s); auto; right; discriminate).
    destruct Hd as [Hd|Hd]; [exists 0, s; split; [constructor|exact Hd]|].
    destruct (internal_enabled n s Hr Hst Hd) as (a & s' & Hi & Hs). destruct (internal_decreases n s a s' Hr Hst Hi Hs) as [Hlt Hst'].
    destruct (IH s') as (k & s2 & Hk & Hd2); [now apply reach_ok with s a|exact Hst'|lia|].
    exists (S k), s2. split; [now apply irunS with a s'|exact Hd2].
Qed.

(** No lost wakeup: a waiting worker and a queued task never coexist without a notification on its way or an awake worker about to look. *)
Lemma no_lost_wakeup n s i : reach body n s -> nth_error (workers s) i = Some WWait -> 
  length (tasks s) <= notifies s + wsum checking (workers s).
Proof. intros H Hi. destruct (reach_inv n s H). eauto. Qed.
Lemma checking_pos l : 0 < wsum checking l -> exists i, nth_error l i = Some WCheck.
Proof.
  induction l as [|[| |t|] l IH]; cbn; intros H; [lia|now exists 0|..]; destruct (IH H) as [i Hi]; now exists (S i).
Qed.
End P.
