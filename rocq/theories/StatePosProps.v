(** C47, continued: the distance propagated with positivity enforcement, for every trajectory and every scale. *)
From Coq Require Import Reals List Arith Bool ZArith Lia Lra.
From Verif Require Import IntModel XsModel XsProofs StateModel StateProofs StateHistory StateLaws StateReady
  StateFrames StateProps StateRunProps.
Import ListNotations.
Open Scope R_scope.

(** [n] is [x] without its fractional part. *)
Definition truncates (x : R) (n : Z) : Prop :=
  (0 <= x -> 0 <= IZR n <= x /\ x < IZR n + 1) /\ (x < 0 -> x <= IZR n <= 0 /\ IZR n - 1 < x).

Lemma truncates_unique x n m : truncates x n -> truncates x m -> n = m.
Proof.
  intros [A B] [C D]. destruct (Rle_dec 0 x) as [H|H].
  - destruct (A H), (C H). assert (X : IZR n < IZR m + 1) by lra. assert (Y : IZR m < IZR n + 1) by lra.
    rewrite <- plus_IZR in X, Y. apply lt_IZR in X, Y. lia.
  - destruct (B ltac:(lra)), (D ltac:(lra)). assert (X : IZR n < IZR m + 1) by lra. assert (Y : IZR m < IZR n + 1) by lra.
    rewrite <- plus_IZR in X, Y. apply lt_IZR in X, Y. lia.
Qed.
Lemma int_part_spec x n : Int_part x = n -> IZR n <= x /\ x < IZR n + 1.
Proof. intros <-. pose proof (base_Int_part x). lra. Qed.
Lemma to_int_truncates x n : to_int x = Some n -> truncates x n.
Proof.
  unfold to_int. destruct (_ && _); [|discriminate]. intros E. injection E as <-. unfold rtrunc. split; intros H.
  - rewrite (rle_true 0 x H). destruct (int_part_spec x _ eq_refl) as [A B]. split; [|exact B]. split; [|exact A].
    assert (X : IZR (Int_part x) > -1) by lra. apply Rgt_lt in X. apply lt_IZR in X. apply IZR_le. lia.
  - assert (N : rle 0 x = false) by (unfold rle; destruct (Rle_dec 0 x); [lra|reflexivity]). rewrite N, opp_IZR.
    destruct (int_part_spec (- x) _ eq_refl) as [A B]. split; [|lra]. split; [lra|].
    assert (X : IZR (Int_part (- x)) > -1) by lra. apply Rgt_lt in X. apply lt_IZR in X.
    assert (Y : 0 <= IZR (Int_part (- x))) by (apply IZR_le; lia). lra.
Qed.

(** The clock advances by the final position; if length and scale differ in sign, by whole steps more. *)
Theorem c47_advance : forall e k s0 h s t b s' ev, made e k s0 -> history e s0 h s -> last_track h = Some t ->
  last_body h = Some (Some b) -> shortcut b s = false -> o_pos (q_opts s) = true -> exec e CEvolve s = (Done, s', ev) ->
  exists n, truncates ((tr_fin t - tr_ini t) / o_scale (q_opts s)) n /\
    sq_t (q_sq s') - sq_t (q_sq s) = tr_fin t - (if Z.ltb n 0 then o_scale (q_opts s) * IZR n else 0).
Proof.
  intros e k s0 h s t b s' ev Mk H T B SH OP E. pose proof (history_agrees e k s0 h s Mk H) as A.
  pose proof (ag_track _ _ _ _ A) as Q. rewrite T in Q.
  pose proof (ag_body _ _ _ _ A) as QB. rewrite B in QB. cbn [exec] in E.
  destruct (evolve_state_pos e b t s s' ev QB Q E SH OP) as (n & _ & N & X). exists n.
  split; [apply to_int_truncates; exact N|]. rewrite X. destruct (Z.ltb_spec n 0) as [L|L].
  - rewrite Z2Nat.inj_neg || (replace (Z.to_nat n) with 0%nat by lia). cbn [INR]. lra.
  - rewrite INR_IZR_INZ, Z2Nat.id by exact L. lra.
Qed.
Print Assumptions c47_advance.

(** So the distance is right exactly for trajectories from zero, and for those whose beginning is the whole steps that fit into a length of
    the other sign than the scale. *)
Theorem c47_right_exactly : forall e k s0 h s t b s' ev n, made e k s0 -> history e s0 h s -> last_track h = Some t ->
  last_body h = Some (Some b) -> shortcut b s = false -> o_pos (q_opts s) = true -> exec e CEvolve s = (Done, s', ev) ->
  truncates ((tr_fin t - tr_ini t) / o_scale (q_opts s)) n ->
  (sq_t (q_sq s') - sq_t (q_sq s) = tr_fin t - tr_ini t <-> tr_ini t = if Z.ltb n 0 then o_scale (q_opts s) * IZR n else 0).
Proof.
  intros e k s0 h s t b s' ev n Mk H T B SH OP E N.
  destruct (c47_advance e k s0 h s t b s' ev Mk H T B SH OP E) as (m & M & X).
  rewrite (truncates_unique _ _ _ N M). rewrite X. split; lra.
Qed.
Print Assumptions c47_right_exactly.

(** A reversed trajectory with a positive scale, of at least one step, ending at zero or beyond, goes forward. *)
Theorem c47_backwards_refuted : forall e k s0 h s t b s' ev, made e k s0 -> history e s0 h s -> last_track h = Some t ->
  last_body h = Some (Some b) -> shortcut b s = false -> o_pos (q_opts s) = true -> exec e CEvolve s = (Done, s', ev) ->
  0 < o_scale (q_opts s) -> 0 <= tr_fin t -> tr_fin t <= tr_ini t - o_scale (q_opts s) ->
  0 < sq_t (q_sq s') - sq_t (q_sq s) /\ tr_fin t - tr_ini t < 0.
Proof.
  intros e k s0 h s t b s' ev Mk H T B SH OP E SC F L.
  destruct (c47_advance e k s0 h s t b s' ev Mk H T B SH OP E) as (n & [_ N] & X). split; [|lra]. rewrite X.
  assert (Q : (tr_fin t - tr_ini t) / o_scale (q_opts s) <= -1).
  { apply (Rmult_le_reg_r (o_scale (q_opts s))); [exact SC|]. unfold Rdiv. rewrite Rmult_assoc, Rinv_l by lra. lra. }
  destruct (N ltac:(lra)) as [N1 N2]. assert (N3 : IZR n < 0) by lra. assert (NZ : (n < 0)%Z) by (apply lt_IZR; exact N3).
  destruct (Z.ltb_spec n 0); [|lia]. assert (o_scale (q_opts s) * IZR n < 0) by nra. lra.
Qed.
Print Assumptions c47_backwards_refuted.

Lemma to_int_neg z : (0 < z <= int_max)%Z -> to_int (- IZR z) = Some (- z)%Z.
Proof.
  intro H. assert (P : 0 < IZR z) by (apply (IZR_lt 0); lia). unfold to_int, rtrunc.
  assert (N : rle 0 (- IZR z) = false) by (unfold rle; destruct (Rle_dec 0 (- IZR z)); [lra|reflexivity]). rewrite N.
  rewrite Ropp_involutive, Int_part_IZR. unfold int_max in *.
  destruct (_ && _) eqn:X; [reflexivity|]. apply andb_false_iff in X. rewrite !Z.leb_gt in X. lia.
Qed.
(** From 4 to 0 with steps of 1: the clock goes forward by 4. *)
Example c47_backwards_case : exists s0 h s s' ev, made wenv true s0 /\ history wenv s0 h s /\ last_track h = Some back_ /\
  last_body h = Some (Some earth) /\ shortcut earth s = false /\ o_pos (q_opts s) = true /\ o_scale (q_opts s) = 1 /\
  exec wenv CEvolve s = (Done, s', ev) /\ sq_t (q_sq s') - sq_t (q_sq s) = 4.
Proof.
  destruct (ready_here earth back_) as (s0 & h & s & Mk & H & D & C & R).
  pose proof (ready_able _ _ _ _ _ _ _ R) as A. pose proof (history_agrees _ _ _ _ _ Mk H) as AG.
  set (s1 := put_o_pos true s). set (s2 := put_o_scale 1 s1).
  assert (H2 : history wenv s0 ((CScale 1, Done, [], s2) :: (CPos true, Done, [], s1) :: h) s2).
  { apply h_call with s1; [|reflexivity|discriminate]. apply h_call with s; [exact H|reflexivity|discriminate]. }
  assert (OI : o_int (q_opts s2) = false) by (exact (ab_int _ _ _ _ A)).
  assert (EV : exists s' ev, exec wenv CEvolve s2 = (Done, s', ev)).
  { cbn [exec]. rewrite (evolve_state_eq wenv earth back_ s2); [|exact (ab_body _ _ _ _ A)|exact (ab_track _ _ _ _ A)].
    assert (HA : has_all s2 = true) by (exact (ab_all _ _ _ _ A)). rewrite HA, seq_eq.
    rewrite prep_simple by congruence. set (s3 := if rlt _ _ then _ else _).
    assert (S3 : q_opts s3 = q_opts s2 /\ q_track s3 = Some back_ /\ q_offset s3 = Some 0 /\ q_body s3 = Some earth).
    { unfold s3. destruct (rlt _ _); (split; [reflexivity|split; [|split]]);
        [exact (ab_track _ _ _ _ A)|exact (ab_offset _ _ _ _ A)|exact (ab_body _ _ _ _ A)|
         exact (ab_track _ _ _ _ A)|exact (ab_offset _ _ _ _ A)|exact (ab_body _ _ _ _ A)]. }
    destruct S3 as (S31 & S32 & S33 & S34).
    unfold tail_. change (shortcut earth s2) with false. change (o_pos (q_opts s2)) with true. cbn iota.
    assert (K : out_res (evolve_pos wenv back_ s3) = Done).
    { apply evolve_pos_ok.
      - exact wenv_ok.
      - unfold looks_ok. rewrite S31, S32, S33, S34, OI. repeat split; try discriminate.
        intro X. exfalso. pose proof (ab_src _ _ _ _ A) as Y. change (o_src (q_opts s2)) with (o_src (q_opts s)) in X. congruence.
      - rewrite S31. cbn. lra.
      - rewrite S31. change (o_scale (q_opts s2)) with 1. cbn [back_ tr_ini tr_fin]. replace ((0 - 4) / 1) with (- IZR 4) by lra.
        rewrite to_int_neg by (unfold int_max; lia). discriminate. }
    unfold out_res in K. destruct (evolve_pos wenv back_ s3) as [[r s4] e4]. cbn in K. subst r. eauto. }
  destruct EV as (s' & ev & E).
  assert (T : last_track ((CScale 1, Done, [], s2) :: (CPos true, Done, [], s1) :: h) = Some back_)
    by (cbn; rewrite <- (ag_track _ _ _ _ AG); exact (ab_track _ _ _ _ A)).
  assert (B : last_body ((CScale 1, Done, [], s2) :: (CPos true, Done, [], s1) :: h) = Some (Some earth)).
  { cbn. pose proof (ag_body _ _ _ _ AG) as X. rewrite (ab_body _ _ _ _ A) in X. destruct (last_body h) as [[b'|]|]; congruence. }
  exists s0, ((CScale 1, Done, [], s2) :: (CPos true, Done, [], s1) :: h), s2, s', ev.
  split; [exact Mk|]. split; [exact H2|]. split; [exact T|]. split; [exact B|]. split; [reflexivity|]. split; [reflexivity|]. split; [reflexivity|]. split; [exact E|].
  destruct (c47_advance wenv true s0 _ s2 back_ earth s' ev Mk H2 T B eq_refl eq_refl E) as (n & N & X). rewrite X.
  assert (M : truncates ((tr_fin back_ - tr_ini back_) / o_scale (q_opts s2)) (-4)).
  { change (o_scale (q_opts s2)) with 1. cbn [back_ tr_ini tr_fin]. split; intros; lra. }
  rewrite (truncates_unique _ _ _ N M). change (o_scale (q_opts s2)) with 1. cbn. lra.
Qed.
