(** Properties of runs of an evolution object: distance (C47), position (C48),
    step sign (C49), moving (C52), the constant-density shortcut (C61), failed
    calls (C63), the oscillation switch (C66) and queries (C67). *)
From Coq Require Import Reals List Arith Bool ZArith Lia Lra.
From Verif Require Import IntModel XsModel XsProofs StateModel StateProofs StateHistory StateLaws StateReady
  StateFrames StateProps.
Import ListNotations.
Open Scope R_scope.

Lemma wenv_ok : forall s1 dt, snd (fst (fst (e_solve wenv s1 dt))) = true.
Proof. reflexivity. Qed.

(** a ready object without interactions in the concrete surrounding *)
Lemma ready_here b t : exists s0 h s, made wenv true s0 /\ history wenv s0 h s /\ all_done h /\
  calls_of h = [CInit3 2 2 3 v0 BFlavor; CTrack (Some t); CBody (Some b)] /\
  ready wenv [1; 2] 3 false None b t s.
Proof.
  destruct (ready_exists wenv [1; 2] 3 false None b t v0) as (s0 & h & s & Mk & H & R & C & D);
    [lia|cbn; lia|discriminate|].
  exists s0, h, s. auto.
Qed.

(** ** C47: the distance propagated *)

(** Without positivity enforcement a successful evolution advances the clock
    by the length of the trajectory. *)
Theorem c47_plain e k s0 h s t s' ev : made e k s0 -> history e s0 h s -> last_track h = Some t ->
  o_pos (q_opts s) = false -> exec e CEvolve s = (Done, s', ev) ->
  sq_t (q_sq s') - sq_t (q_sq s) = tr_fin t - tr_ini t.
Proof.
  intros Mk H T OP E. pose proof (history_agrees e k s0 h s Mk H) as A.
  pose proof (ag_track _ _ _ _ A) as Q. rewrite T in Q.
  destruct (c43_success_complete _ _ _ _ _ _ _ Mk H E) as ((b & B) & _).
  pose proof (ag_body _ _ _ _ A) as QB. rewrite B in QB.
  pose proof (ag_anchor _ _ _ _ A) as AN. destruct (anchor h) as [[t1 c]|]; [|congruence].
  destruct AN as (_ & AN). cbn [exec] in E.
  destruct (evolve_state_done e b t _ s s' ev QB Q AN E) as (X & _); [right; exact OP|]. lra.
Qed.

(** With it, on any trajectory that does not run backwards and with a positive
    step, the clock advances by the FINAL position instead of the length ... *)
Lemma pos_advance e k s0 h s t b s' ev : made e k s0 -> history e s0 h s -> last_track h = Some t ->
  last_body h = Some (Some b) -> shortcut b s = false ->
  o_pos (q_opts s) = true -> 0 < o_scale (q_opts s) -> tr_ini t <= tr_fin t ->
  exec e CEvolve s = (Done, s', ev) -> sq_t (q_sq s') - sq_t (q_sq s) = tr_fin t.
Proof.
  intros Mk H T B SH OP SC LE E. pose proof (history_agrees e k s0 h s Mk H) as A.
  pose proof (ag_track _ _ _ _ A) as Q. rewrite T in Q.
  pose proof (ag_body _ _ _ _ A) as QB. rewrite B in QB. cbn [exec] in E.
  destruct (evolve_state_pos e b t s s' ev QB Q E SH OP) as (n & _ & N & X). rewrite X.
  assert (P : (0 <= n)%Z).
  { apply (to_int_nonneg ((tr_fin t - tr_ini t) / o_scale (q_opts s))); [|exact N].
    apply Rmult_le_pos; [lra|]. apply Rlt_le, Rinv_0_lt_compat, SC. }
  rewrite INR_IZR_INZ, Z2Nat.id by exact P. lra.
Qed.

(** ... which is right for trajectories that start at zero *)
Theorem c47_from_zero_partial e k s0 h s t b s' ev : made e k s0 -> history e s0 h s -> last_track h = Some t ->
  last_body h = Some (Some b) -> shortcut b s = false ->
  o_pos (q_opts s) = true -> 0 < o_scale (q_opts s) -> tr_ini t = 0 -> 0 <= tr_fin t ->
  exec e CEvolve s = (Done, s', ev) -> sq_t (q_sq s') - sq_t (q_sq s) = tr_fin t - tr_ini t.
Proof.
  intros Mk H T B SH OP SC Z LE E. rewrite Z, Rminus_0_r.
  apply (pos_advance e k s0 h s t b s' ev); try assumption. lra.
Qed.

(** and wrong for all others *)
Theorem c47_offset_refuted e k s0 h s t b s' ev : made e k s0 -> history e s0 h s -> last_track h = Some t ->
  last_body h = Some (Some b) -> shortcut b s = false ->
  o_pos (q_opts s) = true -> 0 < o_scale (q_opts s) -> tr_ini t <> 0 -> tr_ini t <= tr_fin t ->
  exec e CEvolve s = (Done, s', ev) -> sq_t (q_sq s') - sq_t (q_sq s) <> tr_fin t - tr_ini t.
Proof.
  intros Mk H T B SH OP SC Z LE E.
  rewrite (pos_advance e k s0 h s t b s' ev); try assumption. lra.
Qed.

(** both cases happen *)
Lemma pos_witness (n : Z) t : (0 <= n <= int_max)%Z -> tr_fin t - tr_ini t = IZR n ->
  exists s0 h s s' ev, made wenv true s0 /\ history wenv s0 h s /\ last_track h = Some t /\
    last_body h = Some (Some earth) /\ shortcut earth s = false /\ o_pos (q_opts s) = true /\
    o_scale (q_opts s) = 1 /\ exec wenv CEvolve s = (Done, s', ev) /\
    calls_of h = [CScale 1; CPos true; CInit3 2 2 3 v0 BFlavor; CTrack (Some t); CBody (Some earth)].
Proof.
  intros Hn L. destruct (ready_here earth t) as (s0 & h & s & Mk & H & D & C & R).
  pose proof (ready_able _ _ _ _ _ _ _ R) as A. pose proof (history_agrees _ _ _ _ _ Mk H) as AG.
  set (s1 := put_o_pos true s). set (s2 := put_o_scale 1 s1).
  assert (H2 : history wenv s0 ((CScale 1, Done, [], s2) :: (CPos true, Done, [], s1) :: h) s2).
  { apply h_call with s1; [|reflexivity|discriminate]. apply h_call with s; [exact H|reflexivity|discriminate]. }
  assert (OI : o_int (q_opts s2) = false) by (exact (ab_int _ _ _ _ A)).
  assert (EV : exists s' ev, exec wenv CEvolve s2 = (Done, s', ev)).
  { cbn [exec]. rewrite (evolve_state_eq wenv earth t s2); [|exact (ab_body _ _ _ _ A)|exact (ab_track _ _ _ _ A)].
    assert (HA : has_all s2 = true) by (exact (ab_all _ _ _ _ A)). rewrite HA, seq_eq.
    rewrite prep_simple by congruence. set (s3 := if rlt _ _ then _ else _).
    assert (S3 : q_opts s3 = q_opts s2 /\ q_track s3 = Some t /\ q_offset s3 = Some 0 /\ q_body s3 = Some earth).
    { unfold s3. destruct (rlt _ _); (split; [reflexivity|split; [|split]]);
        [exact (ab_track _ _ _ _ A)|exact (ab_offset _ _ _ _ A)|exact (ab_body _ _ _ _ A)|
         exact (ab_track _ _ _ _ A)|exact (ab_offset _ _ _ _ A)|exact (ab_body _ _ _ _ A)]. }
    destruct S3 as (S31 & S32 & S33 & S34).
    unfold tail_. change (shortcut earth s2) with false. change (o_pos (q_opts s2)) with true. cbn iota.
    assert (K : out_res (evolve_pos wenv t s3) = Done).
    { apply evolve_pos_ok.
      - exact wenv_ok.
      - unfold looks_ok. rewrite S31, S32, S33, S34, OI. repeat split; try discriminate.
        intro X. exfalso. pose proof (ab_src _ _ _ _ A) as Y. change (o_src (q_opts s2)) with (o_src (q_opts s)) in X. congruence.
      - rewrite S31. cbn. lra.
      - rewrite S31. change (o_scale (q_opts s2)) with 1. rewrite L. unfold Rdiv. rewrite Rinv_1, Rmult_1_r.
        rewrite to_int_IZR by exact Hn. discriminate. }
    unfold out_res in K. destruct (evolve_pos wenv t s3) as [[r s4] e4]. cbn in K. subst r. eauto. }
  destruct EV as (s' & ev & E).
  exists s0, ((CScale 1, Done, [], s2) :: (CPos true, Done, [], s1) :: h), s2, s', ev.
  split; [exact Mk|]. split; [exact H2|]. split; [|split; [|split; [|split; [|split; [|split; [exact E|]]]]]]; try reflexivity.
  - cbn. rewrite <- (ag_track _ _ _ _ AG). exact (ab_track _ _ _ _ A).
  - cbn. pose proof (ag_body _ _ _ _ AG) as X. rewrite (ab_body _ _ _ _ A) in X.
    destruct (last_body h) as [[b'|]|]; congruence.
  - unfold calls_of in *. cbn [map fst]. rewrite C. reflexivity.
Qed.

(** 0 to 4 advances by 4; 1 to 4 advances by 4 too *)
Example c47_nonvacuous :
  (exists s0 h s s' ev, made wenv true s0 /\ history wenv s0 h s /\ last_track h = Some fwd /\
     o_pos (q_opts s) = true /\ exec wenv CEvolve s = (Done, s', ev) /\ sq_t (q_sq s') - sq_t (q_sq s) = 4) /\
  (exists s0 h s s' ev, made wenv true s0 /\ history wenv s0 h s /\ last_track h = Some off_fwd /\
     o_pos (q_opts s) = true /\ exec wenv CEvolve s = (Done, s', ev) /\ sq_t (q_sq s') - sq_t (q_sq s) = 4).
Proof.
  split.
  - destruct (pos_witness 4 fwd) as (s0 & h & s & s' & ev & Mk & H & T & B & SH & OP & SC & E & _);
      [unfold int_max; lia|cbn; lra|].
    exists s0, h, s, s', ev. repeat (split; [assumption|]).
    apply (pos_advance wenv true s0 h s fwd earth s' ev); try assumption; cbn; lra.
  - destruct (pos_witness 3 off_fwd) as (s0 & h & s & s' & ev & Mk & H & T & B & SH & OP & SC & E & _);
      [unfold int_max; lia|cbn; lra|].
    exists s0, h, s, s', ev. repeat (split; [assumption|]).
    apply (pos_advance wenv true s0 h s off_fwd earth s' ev); try assumption; cbn; lra.
Qed.

(** Objects with one energy never get a step scale (the model stands for the
    uninitialised member with 0): positivity enforcement cannot work on them
    until the caller supplies one. *)
Theorem c47_single_unset_refuted e s0 h s b : made e false s0 -> history e s0 h s ->
  (forall en v, In en h -> call_of en <> CScale v) -> last_body h = Some (Some b) ->
  o_pos (q_opts s) = true -> shortcut b s = false ->
  out_res (exec e CEvolve s) <> Done.
Proof.
  intros Mk H N B OP SH.
  assert (Z : o_scale (q_opts s) = 0).
  { clear OP SH B. induction H as [|h s c r s' ev H IH E U].
    - exact (nw_one _ _ _ (made_spec e false s0 Mk) eq_refl).
    - pose proof (ag_wf _ _ _ _ (history_agrees _ _ _ _ _ Mk H)) as W.
      assert (Z : o_scale (q_opts s) = 0) by (apply IH; intros en v X; apply N; right; exact X).
      assert (X : forall v, c <> CScale v) by (intro v; exact (N _ v (or_introl eq_refl))).
      assert (OB : s' = out_obj (exec e c s)) by (rewrite E; reflexivity).
      destruct (is_evolve c) eqn:V.
      + destruct c; try discriminate V. pose proof (switches_evolve e s) as S. rewrite <- OB in S.
        unfold switches in S. injection S as S1 S2 S3 S4 S5 S6 S7 S8. congruence.
      + destruct (is_opt c) eqn:O; [|rewrite OB, opts_frame by assumption; auto].
        rewrite OB. destruct c; try discriminate O; try (exfalso; exact (X _ eq_refl)); cbn [exec];
          unfold set_tau, set_gr, set_osc, set_pos, set_const, set_basis, set_sources, read, modify, throw;
          repeat match goal with |- context [if ?b then _ else _] => destruct b end; cbn; auto. }
  pose proof (history_agrees _ _ _ _ _ Mk H) as A.
  pose proof (ag_body _ _ _ _ A) as QB. rewrite B in QB. cbn [exec].
  destruct (q_track s) as [t|] eqn:T.
  2:{ unfold evolve_state, read. rewrite QB, T. destruct (negb _); discriminate. }
  destruct (evolve_state e s) as [[r s'] ev] eqn:E. cbn. intros ->.
  destruct (evolve_state_pos e b t s s' ev QB T E SH OP) as (n & X & _). congruence.
Qed.

(** ** C48: where the medium is asked *)

(** Every question to the medium, in any call of any history, goes to the
    medium given last and at the place that belongs to the clock: the start of
    the trajectory plus the time since the trajectory or the state was set. *)
Theorem c48_queries e k s0 h s c r s' ev b x p : made e k s0 -> history e s0 h s ->
  exec e c s = (r, s', ev) -> In (EvQuery b x p) ev ->
  last_body h = Some (Some b) /\
  exists t clk, anchor h = Some (t, clk) /\ last_track h = Some t /\ p = tr_ini t + (x - clk).
Proof.
  intros Mk H E I. pose proof (history_agrees e k s0 h s Mk H) as A.
  pose proof (ag_wf _ _ _ _ A) as W. pose proof (ag_body _ _ _ _ A) as QB.
  assert (EV : In (EvQuery b x p) (out_evs (exec e c s))) by (rewrite E; exact I).
  assert (K : forall off, q_offset s = Some off -> q_body s = Some b -> q_track s <> None ->
    p = x - off -> last_body h = Some (Some b) /\
    exists t clk, anchor h = Some (t, clk) /\ last_track h = Some t /\ p = tr_ini t + (x - clk)).
  { intros off O B T P. split.
    - rewrite B in QB. destruct (last_body h) as [[b'|]|]; congruence.
    - pose proof (ag_anchor _ _ _ _ A) as AN. rewrite (ag_track _ _ _ _ A) in T.
      destruct (anchor h) as [[t clk]|]; [|congruence]. destruct AN as (L & AN).
      exists t, clk. split; [reflexivity|]. split; [exact L|].
      assert (X : off = clk - tr_ini t) by congruence. rewrite P, X. lra. }
  destruct (is_evolve c) eqn:V.
  - destruct c; try discriminate V. cbn [exec] in EV.
    destruct (q_body s) as [b1|] eqn:B; [|exfalso; revert EV; unfold evolve_state, read; rewrite B; intros []].
    destruct (q_track s) as [t|] eqn:T.
    2:{ exfalso; revert EV; unfold evolve_state, read; rewrite B, T. destruct (negb _); intros []. }
    destruct (q_offset s) as [off|] eqn:O.
    2:{ exfalso. apply (wf_offset _ _ W); [|exact O]. apply (wf_back _ _ W). congruence. }
    destruct (evolve_state_events e b1 t off s B T O) as (F & _). rewrite Forall_forall in F.
    destruct (F _ EV) as (-> & P). apply (K off); try congruence.
  - destruct c; try (exfalso; rewrite other_events in EV by (try exact W; try discriminate; reflexivity); destruct EV).
    cbn [exec] in EV. unfold get_hamiltonian, read in EV. destruct (negb _); [destruct EV|].
    unfold pre_derive in EV. unfold read in EV at 1.
    destruct (q_track s) as [t|] eqn:T; [|destruct EV]. destruct (q_offset s) as [off|] eqn:O; [|destruct EV].
    assert (EV2 : In (EvQuery b x p) (out_evs (pre_derive (sq_t (q_sq s)) s))).
    { unfold pre_derive, read. rewrite T, O. exact EV. }
    destruct (q_body s) as [b1|] eqn:B.
    2:{ exfalso. revert EV. rewrite seq_modify. intros []. }
    destruct (pre_derive_query b1 off (sq_t (q_sq s)) s (conj B O)) as (_ & F). rewrite Forall_forall in F.
    destruct (F _ EV2) as (-> & P). apply (K off); try congruence.
Qed.

(** The position belongs to the clock at the start of an evolution that follows
    the setting of a trajectory or of a state; after it, if positivity is off
    and the integrator ends with a look at the end of its step, the position is
    the end of the trajectory. *)
Theorem c48_end_partial e k s0 h s t s' ev : made e k s0 -> history e s0 h s ->
  anchor h = Some (t, sq_t (q_sq s)) -> o_pos (q_opts s) = false ->
  (forall s1 dt, sq_num (q_sq s1) = true ->
     exists ts, fst (fst (fst (e_solve e s1 dt))) = ts ++ [sq_t (q_sq s1) + dt]) ->
  exec e CEvolve s = (Done, s', ev) -> q_x s' = tr_fin t.
Proof.
  intros Mk H AN OP SV E. pose proof (history_agrees e k s0 h s Mk H) as A.
  pose proof (ag_anchor _ _ _ _ A) as AG. rewrite AN in AG. destruct AG as (L & O).
  pose proof (ag_track _ _ _ _ A) as T. rewrite L in T.
  destruct (c43_success_complete _ _ _ _ _ _ _ Mk H E) as ((b & B) & _).
  pose proof (ag_body _ _ _ _ A) as QB. rewrite B in QB. cbn [exec] in E.
  destruct (evolve_state_done e b t _ s s' ev QB T O E) as (_ & X); [right; exact OP|].
  rewrite X; [lra|]. right. intros s1 N C. apply SV. exact N.
Qed.

(** setting a trajectory or a state does tie the position to the clock *)
Theorem c48_tied e k s0 h s c r s' ev : made e k s0 -> history e s0 h s -> exec e c s = (r, s', ev) -> r = Done ->
  (forall t, c = CTrack (Some t) -> anchor ((c, r, ev, s') :: h) = Some (t, sq_t (q_sq s'))) /\
  (is_init c = true -> exists t, last_track h = Some t /\
     anchor ((c, r, ev, s') :: h) = Some (t, sq_t (q_sq s'))).
Proof.
  intros Mk H E ->. pose proof (history_agrees e k s0 h s Mk H) as A. split.
  - intros t ->. reflexivity.
  - intro I. destruct (init_cases e c s (ag_wf _ _ _ _ A) I) as [X|(t & s1 & T & _)]; [rewrite X in E; discriminate E|].
    exists t. assert (L : last_track h = Some t) by (rewrite <- (ag_track _ _ _ _ A); exact T).
    split; [exact L|]. destruct c; try discriminate I; cbn; rewrite L; reflexivity.
Qed.

(** Evolving twice without a new trajectory asks the medium beyond the end. *)
Theorem c48_again_refuted : exists s0 h s s' ev x p, made wenv true s0 /\ history wenv s0 h s /\ all_done h /\
  calls_of h = [CEvolve; CInit3 2 2 3 v0 BFlavor; CTrack (Some fwd); CBody (Some earth)] /\
  exec wenv CEvolve s = (Done, s', ev) /\ In (EvQuery earth x p) ev /\ tr_fin fwd < p.
Proof.
  destruct (ready_here earth fwd) as (s0 & h & s & Mk & H & D & C & R).
  pose proof (ready_able _ _ _ _ _ _ _ R) as A. open_ready R.
  destruct (able_evolve wenv _ _ _ _ wenv_ok A) as (s1 & ev1 & E1 & A1 & C1 & _).
  destruct (able_evolve wenv _ _ _ _ wenv_ok A1) as (s2 & ev2 & E2 & _ & _ & _ & _ & _ & _ & Q2 & _).
  destruct Q2 as (p & Q2); [intros s3 _ _; left; reflexivity|].
  assert (H1 : history wenv s0 ((CEvolve, Done, ev1, s1) :: h) s1) by (apply h_call with s; [exact H|exact E1|discriminate]).
  eexists s0, ((CEvolve, Done, ev1, s1) :: h), s1, s2, ev2, _, p.
  split; [exact Mk|]. split; [exact H1|]. split; [constructor; [reflexivity|exact D]|].
  split; [unfold calls_of in *; cbn [map fst]; rewrite C; reflexivity|].
  split; [exact E2|]. split; [exact Q2|].
  destruct (evolve_state_events wenv earth fwd 0 s1) as (F & _); [apply A1|apply A1|apply A1|].
  cbn [exec] in E2. rewrite E2, Forall_forall in F. destruct (F _ Q2) as (_ & P). rewrite P, C1, R6. cbn. lra.
Qed.

(** the first evolution does end at the end of the trajectory, and a second
    trajectory continues it *)
Example c48_nonvacuous : exists s0 h s s1 ev1 s2 s3 ev3, made wenv true s0 /\ history wenv s0 h s /\
  anchor h = Some (fwd, sq_t (q_sq s)) /\ exec wenv CEvolve s = (Done, s1, ev1) /\ q_x s1 = 4 /\
  exec wenv (CTrack (Some off_fwd)) s1 = (Done, s2, []) /\ exec wenv CEvolve s2 = (Done, s3, ev3) /\
  q_x s2 = 1 /\ q_x s3 = 4 /\ sq_t (q_sq s3) = 7.
Proof.
  destruct (ready_here earth fwd) as (s0 & h & s & Mk & H & D & C & R).
  pose proof (ready_able _ _ _ _ _ _ _ R) as A. open_ready R.
  assert (AN : anchor h = Some (fwd, sq_t (q_sq s))).
  { unfold calls_of in C. inversion H as [|h1 s1 c r s2 ev H1 E U]; subst; [discriminate C|].
    cbn in C. injection C as -> C. inversion D as [|? ? D1 _]; subst. cbn in D1. subst r.
    destruct (c48_tied wenv true s0 h1 s1 _ Done s ev Mk H1 E eq_refl) as (_ & X).
    destruct (X eq_refl) as (t & T & Y). rewrite Y. f_equal. f_equal.
    pose proof (ag_track _ _ _ _ (history_agrees _ _ _ _ _ Mk H)) as Q.
    rewrite R10 in Q. cbn in Q. destruct (history_agrees _ _ _ _ _ Mk H1) as [? ? ? G ? ? ? ?]. congruence. }
  assert (SV : forall s1 dt, sq_num (q_sq s1) = true ->
     exists ts, fst (fst (fst (e_solve wenv s1 dt))) = ts ++ [sq_t (q_sq s1) + dt]) by (intros; exists []; reflexivity).
  destruct (able_evolve wenv _ _ _ _ wenv_ok A) as (s1 & ev1 & E1 & A1 & C1 & _ & _ & S1 & _).
  assert (H1 : history wenv s0 ((CEvolve, Done, ev1, s1) :: h) s1) by (apply h_call with s; [exact H|exact E1|discriminate]).
  set (s2 := out_obj (exec wenv (CTrack (Some off_fwd)) s1)).
  assert (H2 : history wenv s0 ((CTrack (Some off_fwd), Done, [], s2) :: (CEvolve, Done, ev1, s1) :: h) s2)
    by (apply h_call with s1; [exact H1|reflexivity|discriminate]).
  assert (OP : o_pos (q_opts s1) = false).
  { unfold switches in S1. injection S1 as _ _ _ _ X _ _ _. rewrite X, R7. reflexivity. }
  assert (A2 : able earth off_fwd (sq_t (q_sq s1) - 1) s2).
  { destruct A1 as [B1 B2 B3 B4 B5 B6 B7]. constructor; try assumption; try reflexivity.
    unfold has_all in *. cbn. apply andb_prop in B4. destruct B4 as (B4 & B41). apply andb_prop in B4.
    destruct B4 as (B4 & B42). apply andb_prop in B4. destruct B4 as (B43 & _). rewrite B43, B42, B41. reflexivity. }
  destruct (able_evolve wenv _ _ _ _ wenv_ok A2) as (s3 & ev3 & E3 & _ & C3 & _).
  exists s0, h, s, s1, ev1, s2, s3, ev3.
  split; [exact Mk|]. split; [exact H|]. split; [exact AN|]. split; [exact E1|].
  split; [apply (c48_end_partial wenv true s0 h s fwd s1 ev1); try assumption; rewrite R7; reflexivity|].
  split; [reflexivity|]. split; [exact E3|]. split; [reflexivity|]. split.
  - apply (c48_end_partial wenv true s0 _ s2 off_fwd s3 ev3 Mk H2); try assumption. reflexivity.
  - rewrite C3. change (sq_t (q_sq s2)) with (sq_t (q_sq s1)). rewrite C1, R6. cbn. lra.
Qed.

(** ** C49: sign of the step *)

(** The step used is the object's step, with its sign changed if the
    trajectory runs backwards, whatever the sign was. *)
Theorem c49_step e k s0 h s t s' ev r dt hh num bs : made e k s0 -> history e s0 h s -> last_track h = Some t ->
  exec e CEvolve s = (r, s', ev) -> In (EvEvolve dt hh num bs) ev ->
  hh = if rlt (tr_fin t) (tr_ini t) then - sq_h (q_sq s) else sq_h (q_sq s).
Proof.
  intros Mk H L E I. pose proof (history_agrees e k s0 h s Mk H) as A. pose proof (ag_wf _ _ _ _ A) as W.
  pose proof (ag_track _ _ _ _ A) as T. rewrite L in T. cbn [exec] in E.
  destruct (q_body s) as [b|] eqn:B; [|exfalso; revert E; unfold evolve_state, read; rewrite B; injection 1 as _ _ <-; destruct I].
  destruct (q_offset s) as [off|] eqn:O.
  2:{ exfalso. apply (wf_offset _ _ W); [|exact O]. apply (wf_back _ _ W). congruence. }
  destruct (evolve_state_events e b t off s B T O) as (F & _). rewrite E, Forall_forall in F.
  destruct (F _ I) as (-> & _). unfold turned. destruct (rlt _ _); lra.
Qed.

(** no evolution backwards so far *)
Fixpoint never_back (h : list entry) : Prop :=
  match h with
  | [] => True
  | en :: h => (call_of en = CEvolve -> forall t, last_track h = Some t -> tr_ini t <= tr_fin t) /\ never_back h
  end.

(** If steps start out positive and the state is set up without changing that,
    then as long as no evolution ran backwards the sign is right. *)
Theorem c49_first_partial e k s0 h s t s' ev r dt hh num bs : made e k s0 -> history e s0 h s ->
  0 < e_h e -> 0 < e_km e -> (forall v, 0 < v -> 0 < e_ini_h e v) -> never_back h -> last_track h = Some t ->
  exec e CEvolve s = (r, s', ev) -> In (EvEvolve dt hh num bs) ev ->
  (tr_ini t <= tr_fin t -> 0 < hh) /\ (tr_fin t < tr_ini t -> hh < 0).
Proof.
  intros Mk H P1 P2 P3 NB L E I. rewrite (c49_step e k s0 h s t s' ev r dt hh num bs Mk H L E I).
  assert (P : 0 < sq_h (q_sq s)).
  { clear L E I. induction H as [|h s c r1 s1 ev1 H IH E U].
    - rewrite (nw_h _ _ _ (made_spec e k s0 Mk)). destruct k; assumption.
    - destruct NB as (NB1 & NB2). specialize (IH NB2).
      pose proof (history_agrees e k s0 h s Mk H) as A. pose proof (ag_wf _ _ _ _ A) as W.
      assert (OB : s1 = out_obj (exec e c s)) by (rewrite E; reflexivity).
      destruct (is_evolve c) eqn:V.
      + destruct c; try discriminate V. rewrite OB.
        destruct (step_evolve e s) as [X|(t1 & T1 & X)]; rewrite X; [exact IH|].
        unfold turned. rewrite (ag_track _ _ _ _ A) in T1. rewrite rlt_false by (apply (NB1 eq_refl t1 T1)). exact IH.
      + destruct (is_init c) eqn:J.
        * destruct (init_cases e c s W J) as [X|(t1 & s2 & _ & X & S2 & _)]; rewrite OB, X; [exact IH|].
          cbn. rewrite (ss_h _ _ _ _ S2). apply P3, IH.
        * rewrite OB, sq_frame by assumption. exact IH. }
  split; intro LE.
  - rewrite rlt_false by exact LE. exact P.
  - rewrite rlt_true by exact LE. lra.
Qed.

(** The second of two backward evolutions uses a positive step, and a forward
    evolution after a backward one a negative step. *)
Theorem c49_second_refuted : exists s0 h s s' ev dt num bs, made wenv true s0 /\ history wenv s0 h s /\ all_done h /\
  calls_of h = [CEvolve; CInit3 2 2 3 v0 BFlavor; CTrack (Some back_); CBody (Some earth)] /\
  exec wenv CEvolve s = (Done, s', ev) /\ In (EvEvolve dt 1 num bs) ev /\ tr_fin back_ < tr_ini back_.
Proof.
  destruct (ready_here earth back_) as (s0 & h & s & Mk & H & D & C & R).
  pose proof (ready_able _ _ _ _ _ _ _ R) as A. open_ready R.
  destruct (able_evolve wenv _ _ _ _ wenv_ok A) as (s1 & ev1 & E1 & A1 & _ & S1 & _).
  destruct (able_evolve wenv _ _ _ _ wenv_ok A1) as (s2 & ev2 & E2 & _ & _ & _ & _ & _ & (dt & I) & _).
  assert (X : turned back_ s1 = 1).
  { unfold turned. rewrite rlt_true by (cbn; lra). rewrite S1. unfold turned. rewrite rlt_true by (cbn; lra).
    rewrite R6. cbn. lra. }
  rewrite X in I.
  exists s0, ((CEvolve, Done, ev1, s1) :: h), s1, s2, ev2. do 3 eexists.
  split; [exact Mk|]. split; [apply h_call with s; [exact H|exact E1|discriminate]|].
  split; [constructor; [reflexivity|exact D]|].
  split; [unfold calls_of in *; cbn [map fst]; rewrite C; reflexivity|].
  split; [exact E2|]. split; [exact I|cbn; lra].
Qed.

Theorem c49_forward_refuted : exists s0 h s s' ev dt num bs, made wenv true s0 /\ history wenv s0 h s /\ all_done h /\
  calls_of h = [CTrack (Some fwd); CEvolve; CInit3 2 2 3 v0 BFlavor; CTrack (Some back_); CBody (Some earth)] /\
  exec wenv CEvolve s = (Done, s', ev) /\ In (EvEvolve dt (-1) num bs) ev /\ tr_ini fwd < tr_fin fwd.
Proof.
  destruct (ready_here earth back_) as (s0 & h & s & Mk & H & D & C & R).
  pose proof (ready_able _ _ _ _ _ _ _ R) as A. open_ready R.
  destruct (able_evolve wenv _ _ _ _ wenv_ok A) as (s1 & ev1 & E1 & A1 & _ & S1 & _).
  set (s2 := out_obj (exec wenv (CTrack (Some fwd)) s1)).
  assert (A2 : able earth fwd (sq_t (q_sq s1) - 0) s2).
  { destruct A1 as [B1 B2 B3 B4 B5 B6 B7]. constructor; try assumption; try reflexivity.
    unfold has_all in *. cbn. apply andb_prop in B4. destruct B4 as (B4 & B41). apply andb_prop in B4.
    destruct B4 as (B4 & B42). apply andb_prop in B4. destruct B4 as (B43 & _). rewrite B43, B42, B41. reflexivity. }
  destruct (able_evolve wenv _ _ _ _ wenv_ok A2) as (s3 & ev3 & E3 & _ & _ & _ & _ & _ & (dt & I) & _).
  assert (X : turned fwd s2 = -1).
  { unfold turned. rewrite rlt_false by (cbn; lra). change (sq_h (q_sq s2)) with (sq_h (q_sq s1)). rewrite S1. unfold turned.
    rewrite rlt_true by (cbn; lra). rewrite R6. cbn. lra. }
  rewrite X in I.
  exists s0, ((CTrack (Some fwd), Done, [], s2) :: (CEvolve, Done, ev1, s1) :: h), s2, s3, ev3. do 3 eexists.
  split; [exact Mk|].
  split; [apply h_call with s1; [apply h_call with s; [exact H|exact E1|discriminate]|reflexivity|discriminate]|].
  split; [constructor; [reflexivity|constructor; [reflexivity|exact D]]|].
  split; [unfold calls_of in *; cbn [map fst]; rewrite C; reflexivity|].
  split; [exact E3|]. split; [exact I|cbn; lra].
Qed.

Example c49_nonvacuous : exists s0 h s s' ev dt num bs, made wenv true s0 /\ history wenv s0 h s /\ never_back h /\
  last_track h = Some back_ /\ exec wenv CEvolve s = (Done, s', ev) /\ In (EvEvolve dt (-1) num bs) ev.
Proof.
  destruct (ready_here earth back_) as (s0 & h & s & Mk & H & D & C & R).
  pose proof (ready_able _ _ _ _ _ _ _ R) as A. open_ready R.
  destruct (able_evolve wenv _ _ _ _ wenv_ok A) as (s1 & ev1 & E1 & _ & _ & _ & _ & _ & (dt & I) & _).
  assert (X : turned back_ s = -1).
  { unfold turned. rewrite rlt_true by (cbn; lra). rewrite R6. cbn. lra. }
  rewrite X in I. exists s0, h, s, s1, ev1. do 3 eexists. split; [exact Mk|]. split; [exact H|].
  split; [|split; [|split; [exact E1|exact I]]].
  - unfold calls_of in C. destruct h as [|a1 [|a2 [|a3 [|]]]]; try discriminate C. injection C as C1 C2 C3.
    cbn. unfold call_of. rewrite C1, C2, C3. repeat split; discriminate.
  - rewrite <- (ag_track _ _ _ _ (history_agrees _ _ _ _ _ Mk H)). exact R10.
Qed.

(** ** C61: the constant-density shortcut *)

(** As long as the shortcut was never allowed, all steps are made numerically
    and in the basis chosen. *)
Theorem c61_never_allowed_partial e k s0 h s r s' ev dt hh num bs : made e k s0 -> history e s0 h s ->
  e_ini_num e true = true -> (forall en, In en h -> call_of en <> CConst true) ->
  exec e CEvolve s = (r, s', ev) -> In (EvEvolve dt hh num bs) ev -> num = true /\ bs = o_basis (q_opts s).
Proof.
  intros Mk H IN N E I.
  assert (Z : o_const (q_opts s) = false /\ sq_num (q_sq s) = true).
  { clear E I. induction H as [|h s c r1 s1 ev1 H IH E U].
    - pose proof (made_spec e k s0 Mk) as X. destruct (nw_opts _ _ _ X) as (i & sc & O). rewrite O.
      split; [reflexivity|exact (nw_num _ _ _ X)].
    - destruct IH as (Z1 & Z2); [intros en X; apply N; right; exact X|].
      pose proof (history_agrees e k s0 h s Mk H) as A. pose proof (ag_wf _ _ _ _ A) as W.
      assert (OB : s1 = out_obj (exec e c s)) by (rewrite E; reflexivity). rewrite OB.
      destruct (is_evolve c) eqn:V.
      + destruct c; try discriminate V. destruct (num_evolve e s Z1) as (X1 & X2). rewrite X1, X2. auto.
      + assert (O : o_const (q_opts (out_obj (exec e c s))) = false).
        { destruct (is_opt c) eqn:O; [|rewrite opts_frame by assumption; exact Z1].
          assert (NC : c <> CConst true) by (exact (N _ (or_introl eq_refl))).
          destruct c; try discriminate O; cbn [exec];
          unfold set_tau, set_gr, set_osc, set_pos, set_const, set_scale, set_basis, set_sources, read, modify, throw;
          repeat match goal with |- context [if ?b then _ else _] => destruct b end; cbn; auto; match goal with |- ?v = false => destruct v; [exfalso; apply NC; reflexivity|reflexivity] end. }
        split; [exact O|]. destruct (is_init c) eqn:J.
        * destruct (init_cases e c s W J) as [X|(t1 & s2 & _ & X & S2 & _)]; rewrite X; [exact Z2|].
          cbn. rewrite (ss_num _ _ _ _ S2), Z2. exact IN.
        * rewrite sq_frame by assumption. exact Z2. }
  destruct Z as (Z1 & Z2). pose proof (history_agrees e k s0 h s Mk H) as A. pose proof (ag_wf _ _ _ _ A) as W.
  cbn [exec] in E.
  destruct (q_body s) as [b|] eqn:B; [|exfalso; revert E; unfold evolve_state, read; rewrite B; injection 1 as _ _ <-; destruct I].
  destruct (q_track s) as [t|] eqn:T.
  2:{ exfalso. revert E. unfold evolve_state, read; rewrite B, T. destruct (negb _); injection 1 as _ _ <-; destruct I. }
  destruct (q_offset s) as [off|] eqn:O.
  2:{ exfalso. apply (wf_offset _ _ W); [|exact O]. apply (wf_back _ _ W). congruence. }
  destruct (evolve_state_events e b t off s B T O) as (F & _). rewrite E, Forall_forall in F.
  destruct (F _ I) as (_ & -> & ->). unfold step_num, step_basis, shortcut. rewrite Z1, andb_false_r. auto.
Qed.

(** Once it was used, a later evolution through a varying medium is made
    without numerics: the state does not change at all. *)
Theorem c61_sticky_refuted : exists s0 h s s' ev dt hh bs, made wenv true s0 /\ history wenv s0 h s /\ all_done h /\
  calls_of h = [CTrack (Some fwd); CBody (Some earth); CEvolve; CConst true;
                CInit3 2 2 3 v0 BFlavor; CTrack (Some fwd); CBody (Some rock)] /\
  b_const earth = false /\ exec wenv CEvolve s = (Done, s', ev) /\ In (EvEvolve dt hh false bs) ev /\
  sq_state (q_sq s') = sq_state (q_sq s).
Proof.
  destruct (ready_here rock fwd) as (s0 & h & s & Mk & H & D & C & R).
  pose proof (ready_able _ _ _ _ _ _ _ R) as A. open_ready R.
  set (s1 := put_o_const true s).
  assert (SH : shortcut rock s1 = true) by (unfold shortcut; cbn; rewrite R7; reflexivity).
  assert (A1 : able rock fwd 0 s1).
  { destruct A as [B1 B2 B3 B4 B5 B6 B7]. constructor; try assumption. left. exact SH. }
  destruct (able_evolve wenv _ _ _ _ wenv_ok A1) as (s2 & ev2 & E2 & A2 & _ & _ & N2 & SW & _).
  unfold step_num in N2. rewrite SH in N2.
  set (s3 := out_obj (exec wenv (CBody (Some earth)) s2)). set (s4 := out_obj (exec wenv (CTrack (Some fwd)) s3)).
  assert (NP : o_pos (q_opts s2) = false).
  { unfold switches in SW. injection SW as _ _ _ _ X _ _ _. rewrite X. cbn. rewrite R7. reflexivity. }
  assert (A4 : able earth fwd (sq_t (q_sq s2) - 0) s4).
  { destruct A2 as [B1 B2 B3 B4 B5 B6 B7]. constructor; try assumption; try reflexivity.
    - unfold has_all in *. cbn. apply andb_prop in B4. destruct B4 as (B4 & B41). apply andb_prop in B4.
      destruct B4 as (B4 & B42). rewrite B42, B41. reflexivity.
    - right. exact NP. }
  destruct (able_evolve wenv _ _ _ _ wenv_ok A4) as (s5 & ev5 & E5 & _ & _ & _ & _ & _ & (dt & I) & _ & ST).
  assert (NM : step_num earth s4 = false) by exact N2.
  rewrite NM in I.
  exists s0, ((CTrack (Some fwd), Done, [], s4) :: (CBody (Some earth), Done, [], s3) :: (CEvolve, Done, ev2, s2) ::
              (CConst true, Done, [], s1) :: h), s4, s5, ev5. do 3 eexists.
  split; [exact Mk|]. split; [|split; [|split; [|split; [reflexivity|split; [exact E5|split; [exact I|]]]]]].
  - apply h_call with s3; [|reflexivity|discriminate]. apply h_call with s2; [|reflexivity|discriminate].
    apply h_call with s1; [|exact E2|discriminate]. apply h_call with s; [exact H|reflexivity|discriminate].
  - repeat (constructor; [reflexivity|]). exact D.
  - unfold calls_of in *. cbn [map fst]. rewrite C. reflexivity.
  - apply ST; [exact NM|reflexivity].
Qed.

Example c61_nonvacuous : exists s0 h s s' ev dt hh bs, made wenv true s0 /\ history wenv s0 h s /\
  (forall en, In en h -> call_of en <> CConst true) /\ e_ini_num wenv true = true /\
  exec wenv CEvolve s = (Done, s', ev) /\ In (EvEvolve dt hh true bs) ev.
Proof.
  destruct (ready_here earth fwd) as (s0 & h & s & Mk & H & D & C & R).
  pose proof (ready_able _ _ _ _ _ _ _ R) as A. open_ready R.
  destruct (able_evolve wenv _ _ _ _ wenv_ok A) as (s1 & ev1 & E1 & _ & _ & _ & _ & _ & (dt & I) & _).
  assert (X : step_num earth s = true) by (unfold step_num; cbn; rewrite R6; reflexivity).
  rewrite X in I. exists s0, h, s, s1, ev1. do 3 eexists. split; [exact Mk|]. split; [exact H|].
  split; [|split; [reflexivity|split; [exact E1|exact I]]].
  unfold calls_of in C. destruct h as [|a1 [|a2 [|a3 [|]]]]; try discriminate C. injection C as C1 C2 C3.
  intros en Y. unfold call_of. repeat destruct Y as [<-|Y]; rewrite ?C1, ?C2, ?C3; try discriminate. destruct Y.
Qed.

(** ** C63: failed calls *)

(** Every call but an evolution or the initialisation of interactions, in any
    history, leaves the object as it was when it throws. *)
Theorem c63_unchanged_partial e k s0 h s c s' ev : made e k s0 -> history e s0 h s ->
  c <> CEvolve -> c <> CInteractions -> exec e c s = (Threw, s', ev) -> s' = s /\ ev = [].
Proof.
  intros Mk H N1 N2 E. pose proof (ag_wf _ _ _ _ (history_agrees e k s0 h s Mk H)) as W.
  destruct (is_init c) eqn:I.
  { destruct (init_cases e c s W I) as [Y|(tr & s1 & _ & Y & _)]; rewrite Y in E; [injection E as <- <-; auto|discriminate E]. }
  destruct (is_param c) eqn:P.
  { destruct (param_cases e c s W P) as [Y|(s1 & Y & _)]; rewrite Y in E; [injection E as <- <-; auto|discriminate E]. }
  destruct c; try discriminate I; try discriminate P; try congruence; cbn [exec] in E;
    try (unfold set_body, set_track, set_osc, set_pos, set_scale, set_const, set_tau, set_gr,
      set_basis, set_sources, set_xs, read, modify, throw, undef in E;
      repeat match type of E with context [match ?b with _ => _ end] => destruct b end;
      try discriminate E; injection E as <- <-; auto; fail).
  unfold get_hamiltonian, read in E. destruct (negb _); [injection E as <- <-; auto|].
  pose proof (pre_derive_no_throw (sq_t (q_sq s)) s) as X. rewrite E in X. exfalso; apply X; reflexivity.
Qed.

(** an evolution refused for want of setup leaves the object alone too *)
Theorem c63_evolve_incomplete_partial e k s0 h s : made e k s0 -> history e s0 h s -> ~ complete k h ->
  exec e CEvolve s = (Threw, s, []).
Proof.
  intros Mk H N. destruct (c43_setup_needed e k s0 h s Mk H) as [X|X]; [exact X|contradiction].
Qed.

Example c63_nonvacuous : exists s0 h s, made wenv true s0 /\ history wenv s0 h s /\
  exec wenv (CAngle 0 7 1) s = (Threw, s, []) /\ exec wenv (CBasis BFlavor) s = (Threw, s, []) /\
  exec wenv (CEnergy 1) s = (Threw, s, []) /\ exec wenv (CTau true) s = (Threw, s, []).
Proof.
  destruct (ready_here earth fwd) as (s0 & h & s & Mk & H & D & C & R). open_ready R.
  exists s0, h, s. split; [exact Mk|]. split; [exact H|]. cbn [exec].
  unfold set_angle, set_basis, set_E, set_tau, read. rewrite R1, R2, R3, R7. repeat split; reflexivity.
Qed.

(** Initialising interactions with an unusable library throws and leaves empty
    tables; with a good library it then succeeds without filling them, and the
    evolution reads outside of them. *)
Theorem c63_interactions_refuted : exists s0 h s, made wenv true s0 /\ history wenv s0 h s /\
  map (fun en => (call_of en, snd (fst (fst en)))) h =
    [(CInteractions, Done); (CXs (Some lib1), Done); (CInteractions, Threw);
     (CInit3 2 2 3 v0 BFlavor, Done); (CTrack (Some fwd), Done); (CBody (Some earth), Done)] /\
  out_res (exec wenv CEvolve s) = Undef OutOfBounds.
Proof.
  destruct (ready_exists wenv [1; 2] 3 true (Some lib0) earth fwd v0) as (s0 & h & s & Mk & H & R & C & D);
    [lia|cbn; lia|discriminate|].
  open_ready R.
  set (s1 := put_i_tabs (Some (Tabs TEmpty 0 0 false)) s).
  assert (E1 : exec wenv CInteractions s = (Threw, s1, [])).
  { cbn [exec]. unfold init_interactions, read. rewrite R8. cbn [i_done i_tabs negb e_tau wenv].
    unfold build_tables, seq_, modify, read. cbn [i_ncs put_i_tabs set_i_tabs q_ints set_q_ints]. rewrite R8. cbn. rewrite ?R8. reflexivity. }
  set (s2 := put_i_done false (put_i_ncs (Some lib1) s1)).
  set (s3 := put_i_done true (put_i_nc (r4 (q_ne s2)) s2)).
  assert (E3 : exec wenv CInteractions s2 = (Done, s3, [])).
  { cbn [exec]. unfold init_interactions, read at 1. cbn [s2 s1 q_ints put_i_done put_i_ncs put_i_tabs set_q_ints
      set_i_done set_i_ncs set_i_tabs i_done i_tabs negb e_tau wenv].
    unfold seq_, modify, read, ret, when. change (q_opts s2) with (q_opts s). rewrite R7. reflexivity. }
  exists s0, ((CInteractions, Done, [], s3) :: (CXs (Some lib1), Done, [], s2) :: (CInteractions, Threw, [], s1) :: h), s3.
  split; [exact Mk|]. split; [|split].
  - apply h_call with s2; [|exact E3|discriminate]. apply h_call with s1; [|reflexivity|discriminate].
    apply h_call with s; [exact H|exact E1|discriminate].
  - cbn [map]. f_equal. f_equal. f_equal. unfold calls_of in C.
    destruct h as [|a1 [|a2 [|a3 [|]]]]; try discriminate C. injection C as C1 C2 C3.
    inversion D as [|? ? D1 D']; subst. inversion D' as [|? ? D2 D'']; subst. inversion D'' as [|? ? D3 _]; subst.
    cbn. unfold call_of. rewrite C1, C2, C3, D1, D2, D3. reflexivity.
  - apply (evolve_state_out wenv s3 earth fwd 0 (Tabs TEmpty 0 0 false)); try assumption; try reflexivity.
    + unfold has_all. change (q_flags s3) with (q_flags s). rewrite R14, R15, R16, FS. reflexivity.
    + cbn. rewrite R7. reflexivity.
    + cbn. rewrite R7. reflexivity.
    + cbn. rewrite R7. reflexivity.
    + cbn. rewrite R7. reflexivity.
    + cbn. rewrite R6. reflexivity.
    + left. reflexivity.
    + discriminate.
Qed.

(** ** C66: the oscillation switch *)

(** since the state was set last, the switch was not touched *)
Fixpoint osc_settled (h : list entry) : Prop :=
  match h with
  | [] => False
  | (c, r, _, _) :: h =>
    (is_init c = true /\ r = Done) \/ ((forall b, c <> COsc b) /\ osc_settled h)
  end.

(** Then the vacuum Hamiltonian in use is that of the present setting. *)
Theorem c66_settled_partial e k s0 h s : made e k s0 -> history e s0 h s -> osc_settled h ->
  h_osc (q_h0 s) = o_osc (q_opts s).
Proof.
  intros Mk H. induction H as [|h s c r s' ev H IH E U]; [intros []|].
  pose proof (history_agrees e k s0 h s Mk H) as A. pose proof (ag_wf _ _ _ _ A) as W.
  assert (OB : s' = out_obj (exec e c s)) by (rewrite E; reflexivity).
  destruct (is_init c) eqn:J.
  { destruct (init_cases e c s W J) as [X|(t1 & s2 & _ & X & S2 & _)]; rewrite X in E; injection E as <- <- <-.
    - intros [(_ & Y)|(_ & Y)]; [discriminate Y|exact (IH Y)].
    - intros _. rewrite (ss_osc _ _ _ _ S2), (ss_opts _ _ _ _ S2). reflexivity. }
  intros [(Y & _)|(Y & Z)]; [congruence|]. specialize (IH Z). rewrite OB.
  assert (O : o_osc (q_opts (out_obj (exec e c s))) = o_osc (q_opts s)).
  { destruct (is_evolve c) eqn:V.
    - destruct c; try discriminate V. pose proof (switches_evolve e s) as S. unfold switches in S.
      injection S as _ X _ _ _ _ _ _. exact X.
    - destruct (is_opt c) eqn:O; [|rewrite opts_frame by assumption; reflexivity].
      destruct c; try discriminate O; try (exfalso; exact (Y _ eq_refl)); cbn [exec];
        unfold set_tau, set_gr, set_osc, set_pos, set_const, set_scale, set_basis, set_sources, read, modify, throw;
        repeat match goal with |- context [if ?b then _ else _] => destruct b end; reflexivity. }
  rewrite O, <- IH. destruct (is_param c) eqn:P.
  { destruct (param_cases e c s W P) as [X|(s1 & X & Fr & _)]; rewrite X; [reflexivity|]. cbn. rewrite Fr. reflexivity. }
  pose proof (core_exec e c J P s) as K. unfold core_keeps, keeps, core in K. injection K as _ _ _ _ _ _ _ K _ _ _.
  rewrite K. reflexivity.
Qed.

(** Otherwise an evolution goes on with the Hamiltonian of the old setting. *)
Theorem c66_late_refuted : exists s0 h s s' ev, made wenv true s0 /\ history wenv s0 h s /\ all_done h /\
  calls_of h = [COsc false; CInit3 2 2 3 v0 BFlavor; CTrack (Some fwd); CBody (Some earth)] /\
  exec wenv CEvolve s = (Done, s', ev) /\ o_osc (q_opts s) = false /\
  h_osc (q_h0 s) = true /\ h_osc (q_h0 s') = true.
Proof.
  destruct (ready_here earth fwd) as (s0 & h & s & Mk & H & D & C & R).
  pose proof (ready_able _ _ _ _ _ _ _ R) as A. open_ready R.
  set (s1 := put_o_osc false s).
  assert (A1 : able earth fwd 0 s1) by (destruct A; constructor; assumption).
  destruct (able_evolve wenv _ _ _ _ wenv_ok A1) as (s2 & ev & E & _).
  assert (X : h_osc (q_h0 s) = true).
  { rewrite (c66_settled_partial wenv true s0 h s Mk H); [rewrite R7; reflexivity|].
    unfold calls_of in C. destruct h as [|[[[c1 r1] e1] a1] h]; [discriminate C|]. injection C as C1 _.
    inversion D as [|? ? D1 _]; subst. left. split; [reflexivity|exact D1]. }
  exists s0, ((COsc false, Done, [], s1) :: h), s1, s2, ev.
  split; [exact Mk|]. split; [apply h_call with s; [exact H|reflexivity|discriminate]|].
  split; [constructor; [reflexivity|exact D]|].
  split; [unfold calls_of in *; cbn [map fst]; rewrite C; reflexivity|].
  split; [exact E|]. split; [reflexivity|]. split; [exact X|].
  pose proof (core_exec wenv CEvolve eq_refl eq_refl s1) as K. rewrite E in K.
  unfold core_keeps, keeps, core in K. injection K as _ _ _ _ _ _ _ K _ _ _. cbn in K. rewrite K. exact X.
Qed.

(** ** C67: asking for the Hamiltonian *)

(** A new object with several energies has no trajectory to look at, and the
    call does not notice. *)
Theorem c67_new_refuted e s0 : made e true s0 -> out_res (exec e CHamiltonian s0) = Undef NullPtr.
Proof.
  intro Mk. pose proof (made_spec e true s0 Mk) as N. cbn [exec]. unfold get_hamiltonian, read.
  rewrite (nw_energy _ _ _ N). cbn [negb]. unfold pre_derive, read. rewrite (nw_track _ _ _ N). reflexivity.
Qed.

(** The same for an object ready to be evolved with interactions: the tables
    are made by the first evolution only. *)
Theorem c67_interactions_refuted : exists s0 h s, made wenv true s0 /\ history wenv s0 h s /\ all_done h /\
  calls_of h = [CInit3 2 2 3 v0 BFlavor; CTrack (Some fwd); CBody (Some earth)] /\
  out_res (exec wenv CHamiltonian s) = Undef NullPtr.
Proof.
  destruct (ready_exists wenv [1; 2] 3 true (Some lib1) earth fwd v0) as (s0 & h & s & Mk & H & R & C & D);
    [lia|cbn; lia|discriminate|].
  open_ready R. exists s0, h, s. split; [exact Mk|]. split; [exact H|]. split; [exact D|]. split; [exact C|].
  cbn [exec]. unfold get_hamiltonian, read. rewrite R15. cbn [negb]. unfold pre_derive, read.
  rewrite R10, R12, R9, R7. cbn [o_src o_int when]. rewrite seq_modify, seq_eq. unfold emit. rewrite seq_ret.
  unfold use_interactions, read. cbn [q_ints set_q_x]. rewrite R8. reflexivity.
Qed.

(** With medium, trajectory and energy given, and neither interactions nor
    sources, the question is answered in every history. *)
Theorem c67_answered_partial e k s0 h s : made e k s0 -> history e s0 h s ->
  (exists b, last_body h = Some (Some b)) -> (exists t, last_track h = Some t) -> k = true \/ energy_given h ->
  o_int (q_opts s) = false -> o_src (q_opts s) = false ->
  out_res (exec e CHamiltonian s) = Done.
Proof.
  intros Mk H (b & B) (t & T) EN OI OS. pose proof (history_agrees e k s0 h s Mk H) as A.
  cbn [exec]. unfold get_hamiltonian, read. rewrite (proj2 (ag_energy _ _ _ _ A) EN). cbn [negb].
  apply pre_derive_ok. unfold looks_ok. rewrite (ag_track _ _ _ _ A), (ag_body _ _ _ _ A), T, B, OI, OS.
  pose proof (ag_anchor _ _ _ _ A) as AN. destruct (anchor h) as [[t1 c1]|]; [|congruence].
  destruct AN as (_ & AN). rewrite AN. repeat split; discriminate.
Qed.

Example c67_nonvacuous : exists s0 h s, made wenv true s0 /\ history wenv s0 h s /\
  out_res (exec wenv CHamiltonian s) = Done.
Proof.
  destruct (ready_here earth fwd) as (s0 & h & s & Mk & H & D & C & R). open_ready R.
  pose proof (history_agrees _ _ _ _ _ Mk H) as A.
  exists s0, h, s. split; [exact Mk|]. split; [exact H|].
  apply (c67_answered_partial wenv true s0 h s Mk H); rewrite ?R7; auto.
  - exists earth. pose proof (ag_body _ _ _ _ A) as X. rewrite R9 in X. destruct (last_body h) as [[b'|]|]; congruence.
  - exists fwd. rewrite <- (ag_track _ _ _ _ A). exact R10.
Qed.

(** ** C52: moving *)

(** A moved-to object whose trajectory was set before the move uses an offset
    that was never written: asking it anything that needs the position is
    undefined, whatever the source was. *)
Theorem c52_ctor_refuted e s t : q_track s = Some t -> f_energy (q_flags s) = true ->
  out_res (exec e CHamiltonian (move_ctor s)) = Undef Uninit.
Proof.
  intros T E. cbn [exec]. unfold get_hamiltonian, read. change (f_energy (q_flags (move_ctor s))) with (f_energy (q_flags s)).
  rewrite E. cbn [negb]. unfold pre_derive, read. change (q_track (move_ctor s)) with (q_track s). rewrite T. reflexivity.
Qed.

(** The source could be evolved; the moved object cannot. *)
Theorem c52_ctor_evolve_refuted : exists s0 h s s' ev, made wenv true s0 /\ history wenv s0 h s /\
  exec wenv CEvolve s = (Done, s', ev) /\ out_res (exec wenv CEvolve (move_ctor s)) = Undef Uninit.
Proof.
  destruct (ready_here earth fwd) as (s0 & h & s & Mk & H & D & C & R).
  pose proof (ready_able _ _ _ _ _ _ _ R) as A. open_ready R.
  destruct (able_evolve wenv _ _ _ _ wenv_ok A) as (s1 & ev & E & _).
  exists s0, h, s, s1, ev. split; [exact Mk|]. split; [exact H|]. split; [exact E|].
  cbn [exec]. set (m := move_ctor s).
  rewrite (evolve_state_eq wenv earth fwd m); [|exact R9|exact R10].
  assert (HA : has_all m = true) by (exact (ab_all _ _ _ _ A)). rewrite HA, seq_eq.
  assert (OI : o_int (q_opts m) = false) by (cbn; rewrite R7; reflexivity).
  rewrite prep_simple by congruence. rewrite rlt_false by (cbn; lra). unfold tail_.
  change (shortcut earth m) with false. assert (OP : o_pos (q_opts m) = false) by (cbn; rewrite R7; reflexivity).
  rewrite OP. cbn iota. unfold evolve, read. rewrite seq_eq. unfold emit.
  assert (N : sq_num (q_sq m) = true) by (cbn; rewrite R6; reflexivity). rewrite N. cbn [e_solve wenv].
  rewrite seq_eq. cbn [meach]. rewrite seq_eq. unfold pre_derive, read. change (q_track m) with (q_track s). rewrite R10.
  reflexivity.
Qed.

(** Move assignment keeps the old offset of the destination: the moved state
    is then propagated through other places of the medium. *)
Theorem c52_assign_refuted : exists s0 h s s' ev d0 hd d d' ev' x p,
  made wenv true s0 /\ history wenv s0 h s /\ exec wenv CEvolve s = (Done, s', ev) /\
  (forall x p, In (EvQuery earth x p) ev -> p = x) /\
  made wenv true d0 /\ history wenv d0 hd d /\
  exec wenv CEvolve (move_assign d s) = (Done, d', ev') /\ In (EvQuery earth x p) ev' /\ p = x + 1.
Proof.
  destruct (ready_here earth fwd) as (s0 & h & s & Mk & H & D & C & R).
  pose proof (ready_able _ _ _ _ _ _ _ R) as A. open_ready R.
  destruct (able_evolve wenv _ _ _ _ wenv_ok A) as (s1 & ev & E & _).
  destruct (make_multi_ok wenv [1; 2] 3 Both false None) as (d0 & M0 & RD); [lia|cbn; lia|discriminate|].
  pose proof (made_multi wenv [1; 2] 3 Both false None d0 [] M0) as MkD.
  unfold rest in RD. injection RD as D1 D2 D3 D4 D5 D6 D7 D8 D9 D10 D11 D12 D13 D14 D15 D16.
  set (d := out_obj (exec wenv (CTrack (Some off_fwd)) d0)).
  assert (HD : history wenv d0 [(CTrack (Some off_fwd), Done, [], d)] d)
    by (apply h_call with d0; [apply h_nil|reflexivity|discriminate]).
  set (m := move_assign d s).
  assert (OFF : q_offset m = Some (-1)) by (cbn; rewrite D6; cbn; f_equal; lra).
  assert (AM : able earth fwd (-1) m).
  { destruct A as [B1 B2 B3 B4 B5 B6 B7]. constructor; try assumption.
    cbn. rewrite D7. reflexivity. }
  destruct (able_evolve wenv _ _ _ _ wenv_ok AM) as (d' & ev' & E' & _ & _ & _ & _ & _ & _ & Q & _).
  destruct Q as (p & Q); [intros s2 _ _; left; reflexivity|].
  eexists s0, h, s, s1, ev, d0, _, d, d', ev', _, p.
  split; [exact Mk|]. split; [exact H|]. split; [exact E|]. split; [|split; [exact MkD|split; [exact HD|split; [exact E'|split; [exact Q|]]]]].
  - intros x p0 I. destruct (evolve_state_events wenv earth fwd 0 s) as (F & _); try assumption.
    cbn [exec] in E. rewrite E, Forall_forall in F. destruct (F _ I) as (_ & P). lra.
  - destruct (evolve_state_events wenv earth fwd (-1) m) as (F & _); [exact R9|exact R10|exact OFF|].
    cbn [exec] in E'. rewrite E', Forall_forall in F. destruct (F _ Q) as (_ & P). lra.
Qed.

(** What survives: if the source was never used with interactions, sources or
    the shortcut, then after setting a trajectory the moved object and the
    source are the same for every further use. *)
Definition plain_call (c : call) : bool :=
  match c with CEvolve | CInteractions | CConst _ | CSources _ => false | _ => true end.

Lemma plain_history e k s0 h s : made e k s0 -> history e s0 h s ->
  (forall en, In en h -> plain_call (call_of en) = true) ->
  o_const (q_opts s) = false /\ o_full (q_opts s) = false /\ o_src (q_opts s) = false /\
  exists x, q_ints s = Ints x None false 0 0 0 None 0.
Proof.
  intros Mk H. induction H as [|h s c r s' ev H IH E U]; intro N.
  - pose proof (made_spec e k s0 Mk) as X. destruct (nw_opts _ _ _ X) as (i & sc & O). rewrite O.
    repeat (split; [reflexivity|]). exact (nw_ints _ _ _ X).
  - destruct IH as (Z1 & Z2 & Z3 & x & Z4); [intros en X; apply N; right; exact X|].
    assert (PC : plain_call c = true) by (exact (N _ (or_introl eq_refl))).
    pose proof (ag_wf _ _ _ _ (history_agrees e k s0 h s Mk H)) as W.
    assert (OB : s' = out_obj (exec e c s)) by (rewrite E; reflexivity). rewrite OB.
    assert (V : is_evolve c = false) by (destruct c; try discriminate PC; reflexivity).
    assert (O : o_const (q_opts (out_obj (exec e c s))) = false /\ o_full (q_opts (out_obj (exec e c s))) = false /\
      o_src (q_opts (out_obj (exec e c s))) = false).
    { destruct (is_opt c) eqn:O; [|rewrite opts_frame by assumption; auto].
      destruct c; try discriminate O; try discriminate PC; cbn [exec];
        unfold set_tau, set_gr, set_osc, set_pos, set_scale, set_basis, read, modify, throw;
        repeat match goal with |- context [if ?b then _ else _] => destruct b end; cbn; auto. }
    destruct O as (O1 & O2 & O3). repeat (split; [assumption|]).
    destruct (is_int c) eqn:J; [|rewrite ints_frame by assumption; eauto].
    destruct c; try discriminate J; try discriminate PC. cbn. rewrite Z4. exists x0. reflexivity.
Qed.

Theorem c52_retrack_partial e k s0 h s : made e k s0 -> history e s0 h s ->
  (forall en, In en h -> plain_call (call_of en) = true) ->
  forall t, exec e (CTrack (Some t)) (move_ctor s) = exec e (CTrack (Some t)) s.
Proof.
  intros Mk H N t. destruct (plain_history e k s0 h s Mk H N) as (Z1 & Z2 & Z3 & x & Z4).
  cbn [exec]. unfold set_track, modify. f_equal. f_equal. unfold move_ctor.
  destruct s as [? ? ? ? ? ? ? [? ? ? ? ? ? ? ? ? ?] ? ? ? ? ? ? ? ?]. cbn in *. subst. reflexivity.
Qed.

(** the same for assignment from such an object to another such object *)
Theorem c52_retrack_assign_partial e k s0 h s kd d0 hd d : made e k s0 -> history e s0 h s ->
  (forall en, In en h -> plain_call (call_of en) = true) ->
  made e kd d0 -> history e d0 hd d -> (forall en, In en hd -> plain_call (call_of en) = true) ->
  forall t, exec e (CTrack (Some t)) (move_assign d s) = exec e (CTrack (Some t)) s.
Proof.
  intros Mk H N MkD HD ND t. destruct (plain_history e k s0 h s Mk H N) as (Z1 & Z2 & Z3 & x & Z4).
  destruct (plain_history e kd d0 hd d MkD HD ND) as (Y1 & Y2 & Y3 & y & Y4).
  cbn [exec]. unfold set_track, modify. f_equal. f_equal. unfold move_assign. rewrite Y1, Y2, Y3, Y4.
  destruct s as [? ? ? ? ? ? ? [? ? ? ? ? ? ? ? ? ?] ? ? ? ? ? ? ? ?]. cbn in *. subst. reflexivity.
Qed.

Example c52_nonvacuous : exists s0 h s s' s1 ev, made wenv true s0 /\ history wenv s0 h s /\
  (forall en, In en h -> plain_call (call_of en) = true) /\
  exec wenv (CTrack (Some fwd)) (move_ctor s) = (Done, s', []) /\ exec wenv CEvolve s' = (Done, s1, ev).
Proof.
  destruct (ready_here earth fwd) as (s0 & h & s & Mk & H & D & C & R).
  pose proof (ready_able _ _ _ _ _ _ _ R) as A.
  assert (N : forall en, In en h -> plain_call (call_of en) = true).
  { unfold calls_of in C. destruct h as [|a1 [|a2 [|a3 [|]]]]; try discriminate C. injection C as C1 C2 C3.
    intros en Y. unfold call_of. repeat destruct Y as [<-|Y]; rewrite ?C1, ?C2, ?C3; try reflexivity. destruct Y. }
  set (s2 := out_obj (exec wenv (CTrack (Some fwd)) s)).
  assert (A2 : able earth fwd (sq_t (q_sq s) - 0) s2).
  { destruct A as [B1 B2 B3 B4 B5 B6 B7]. constructor; try assumption; try reflexivity.
    unfold has_all in *. cbn. apply andb_prop in B4. destruct B4 as (B4 & B41). apply andb_prop in B4.
    destruct B4 as (B4 & B42). apply andb_prop in B4. destruct B4 as (B43 & _). rewrite B43, B42, B41. reflexivity. }
  destruct (able_evolve wenv _ _ _ _ wenv_ok A2) as (s3 & ev & E & _).
  exists s0, h, s, s2, s3, ev. split; [exact Mk|]. split; [exact H|]. split; [exact N|]. split; [|exact E].
  rewrite (c52_retrack_partial wenv true s0 h s Mk H N). reflexivity.
Qed.

Print Assumptions c47_plain.
Print Assumptions c47_from_zero_partial.
Print Assumptions c47_offset_refuted.
Print Assumptions c47_single_unset_refuted.
Print Assumptions c48_queries.
Print Assumptions c48_end_partial.
Print Assumptions c48_tied.
Print Assumptions c48_again_refuted.
Print Assumptions c49_step.
Print Assumptions c49_first_partial.
Print Assumptions c49_second_refuted.
Print Assumptions c49_forward_refuted.
Print Assumptions c61_never_allowed_partial.
Print Assumptions c61_sticky_refuted.
Print Assumptions c63_unchanged_partial.
Print Assumptions c63_evolve_incomplete_partial.
Print Assumptions c63_interactions_refuted.
Print Assumptions c66_settled_partial.
Print Assumptions c66_late_refuted.
Print Assumptions c67_new_refuted.
Print Assumptions c67_interactions_refuted.
Print Assumptions c67_answered_partial.
Print Assumptions c52_ctor_refuted.
Print Assumptions c52_ctor_evolve_refuted.
Print Assumptions c52_assign_refuted.
Print Assumptions c52_retrack_partial.
Print Assumptions c52_retrack_assign_partial.
