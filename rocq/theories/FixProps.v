(** C76: the correction of negative flavour contents. *)
From Coq Require Import Reals List Arith Bool Lia Lra.
From Verif Require Import CMatrix FlavorModel FlavorProofs FlavorEqn FlavorProps FlavorEqnProps PosModel FixProofs.
Import ListNotations.
Open Scope R_scope.

(** The stored projectors are those the content is read with: in the
    interaction basis after a PreDerive at the present clock without filter,
    in the mass basis or without oscillations if they are still the initial
    ones. *)
Definition up_to_date (n : nat) (b : basis) (osc : bool) (cutoff : R) (H : nat -> mat) (tp t : R)
    (P : nat -> nat -> mat) (old : nat -> nat -> nat -> mat) : Prop :=
  match b with
  | BMass => forall r e k, (k < n)%nat -> meq n (old r e k) (P r k)
  | _ => if osc then tp = t /\ cutoff <= 0
         else forall r e k, (k < n)%nat -> H e = mzero /\ meq n (old r e k) (P r k)
  end.

Section Props.
Variables (nrhos ne n : nat) (th dl : nat -> nat -> R) (order : list (nat * nat)) (nt : nutype).
Hypothesis O : pairs_ok n order.
Let P := b1_proj n th dl order nt.
Variables (b : basis) (osc : bool) (cutoff scale : R) (H : nat -> mat) (tp t t0 : R) (old : nat -> nat -> nat -> mat).
Notation fixed := (correct nrhos ne n b osc cutoff scale H tp t t0 P old).
Notation content r e := (eval_flavor n b (H e) t t0 (P r)).

Lemma reading r e : exists V Q, unitary n V /\ frame n V Q /\ (forall M k, (content r e) M k = expect n (Q k) M) /\
  (up_to_date n b osc cutoff H tp t P old -> forall k, (k < n)%nat -> meq n (stored b osc cutoff scale (H e) tp t0 (P r) (old r e) k) (Q k)).
Proof.
  pose proof (mixing_unitary n th (fixed_phases nt r dl) order O) as U. pose proof (frame_b1 n th dl order nt r) as F. fold P in F.
  assert (I : forall b', b' <> BMass -> exists V Q, unitary n V /\ frame n V Q /\ (forall M k, eval_flavor n b' (H e) t t0 (P r) M k = expect n (Q k) M) /\
    (up_to_date n b' osc cutoff H tp t P old -> forall k, (k < n)%nat -> meq n (stored b' osc cutoff scale (H e) tp t0 (P r) (old r e) k) (Q k))).
  { intros b' N. exists (turned (H e) (t - t0) (mixing n th (fixed_phases nt r dl) order)), (fun k => evolve (H e) (t - t0) (P r k)).
    split; [apply turned_unitary; exact U|]. split; [apply frame_evolve; exact F|]. split; [destruct b'; try contradiction; reflexivity|].
    intros C k Hk. assert (C' : if osc then tp = t /\ cutoff <= 0 else forall r e k, (k < n)%nat -> H e = mzero /\ meq n (old r e k) (P r k)) by (destruct b'; auto; contradiction).
    assert (St : stored b' osc cutoff scale (H e) tp t0 (P r) (old r e) k = if osc then evolve_filtered cutoff scale (H e) (tp - t0) (P r k) else old r e k) by (destruct b'; auto; contradiction).
    rewrite St. destruct osc.
    - destruct C' as [-> L]. apply no_filter. exact L.
    - destruct (C' r e k Hk) as [-> E]. eapply meq_trans; [exact E|]. apply meq_sym, evolve_mzero. }
  destruct b; [apply I; discriminate| |apply I; discriminate].
  exists (mixing n th (fixed_phases nt r dl) order), (P r). split; [exact U|]. split; [exact F|]. split; [reflexivity|].
  intros C k Hk. apply C. exact Hk.
Qed.

(** Every content below zero becomes zero, every other stays; elements of no
    node or matrix stay as they were. *)
Theorem c76_contents_partial S e r : up_to_date n b osc cutoff H tp t P old ->
  ((e < ne)%nat -> (r < nrhos)%nat -> forall k, (k < n)%nat -> (content r e) (fixed S e r) k = Rmax 0 ((content r e) (S e r) k)) /\
  ((ne <= e)%nat \/ (nrhos <= r)%nat -> fixed S e r = S e r).
Proof.
  intro C. unfold correct. rewrite positivize_at. split.
  - intros He Hr k Hk. rewrite (proj2 (Nat.ltb_lt e ne) He), (proj2 (Nat.ltb_lt r nrhos) Hr). cbn [andb].
    destruct (reading r e) as (V & Q & U & F & Rd & Up). specialize (Up C).
    refine (node_content n (read_object n b H t t0 P r e) _ _ (S e r) k Hk).
    intros M k' x j Hk' Hj. unfold read_object. rewrite !Rd. apply (expect_lin n V Q); auto.
  - intros [L|L]; [rewrite (proj2 (Nat.ltb_ge e ne) L)|rewrite (proj2 (Nat.ltb_ge r nrhos) L), andb_false_r]; reflexivity.
Qed.

(** No content is negative afterwards. *)
Theorem c76_not_negative_partial S e r k : up_to_date n b osc cutoff H tp t P old -> (e < ne)%nat -> (r < nrhos)%nat -> (k < n)%nat ->
  0 <= (content r e) (fixed S e r) k.
Proof. intros C He Hr Hk. rewrite (proj1 (c76_contents_partial S e r C) He Hr k Hk). apply Rmax_l. Qed.

(** Nothing else changes: any quantity without flavour part, such as a
    coherence, is as before. *)
Theorem c76_coherences_partial S e r A : up_to_date n b osc cutoff H tp t P old -> (e < ne)%nat -> (r < nrhos)%nat ->
  (forall k, (k < n)%nat -> expect n A (match b with BMass => P r k | _ => evolve (H e) (t - t0) (P r k) end) = 0) ->
  expect n A (fixed S e r) = expect n A (S e r).
Proof.
  intros C He Hr Hz. unfold correct. rewrite positivize_at. rewrite (proj2 (Nat.ltb_lt e ne) He), (proj2 (Nat.ltb_lt r nrhos) Hr). cbn [andb].
  destruct (reading r e) as (V & Q & U & F & Rd & Up). specialize (Up C).
  set (St := stored b osc cutoff scale (H e) tp t0 (P r) (old r e)) in *.
  assert (Z : forall k, (k < n)%nat -> expect n A (St k) = 0).
  { intros k Hk. rewrite <- (Hz k Hk). apply expect_meq; [apply meq_refl|]. unfold St, stored. clear Rd Up U F Hz. unfold up_to_date in C. destruct b.
    - destruct osc; [destruct C as [-> L]; apply no_filter; exact L|]. destruct (C r e k Hk) as [-> E].
      eapply meq_trans; [exact E|apply meq_sym, evolve_mzero].
    - apply C; exact Hk.
    - destruct osc; [destruct C as [-> L]; apply no_filter; exact L|]. destruct (C r e k Hk) as [-> E].
      eapply meq_trans; [exact E|apply meq_sym, evolve_mzero]. }
  assert (Li : forall M k x j, (k < n)%nat -> (j < n)%nat ->
    read_object n b H t t0 P r e (mplus M (mscale x (St j))) k = read_object n b H t t0 P r e M k + (if Nat.eqb k j then x else 0)).
  { intros M k' x j Hk' Hj. unfold read_object. rewrite !Rd. apply (expect_lin n V Q); auto. }
  transitivity (expect n A (mplus (S e r) (msum n (fun k => mscale (lack (read_object n b H t t0 P r e) (S e r) k) (St k))))).
  { apply expect_meq; [apply meq_refl|]. intros i j _ _. apply (node_added n _ St Li). }
  rewrite expect_plus_r.
  assert (E : forall m, (m <= n)%nat -> expect n A (msum m (fun k => mscale (lack (read_object n b H t t0 P r e) (S e r) k) (St k))) = 0).
  { induction m as [|m IH]; intro L; cbn [msum].
    - unfold expect. rewrite (trace_meq n _ mzero).
      + unfold trace. rewrite csum_zero; reflexivity.
      + intros i j _ _. unfold mmult, mzero. apply csum_zero. intros. ring.
    - rewrite expect_plus_r, expect_scale_r, IH, Z by lia. ring. }
  rewrite E by lia. ring.
Qed.

(** Correcting again changes no content. *)
Theorem c76_again_partial S e r k : up_to_date n b osc cutoff H tp t P old -> (e < ne)%nat -> (r < nrhos)%nat -> (k < n)%nat ->
  (content r e) (fixed (fixed S) e r) k = (content r e) (fixed S e r) k.
Proof.
  intros C He Hr Hk. rewrite (proj1 (c76_contents_partial (fixed S) e r C) He Hr k Hk).
  apply Rmax_right. apply c76_not_negative_partial; assumption.
Qed.

(** The number of neutrinos grows by what was lacking. *)
Theorem c76_total_partial S e r : up_to_date n b osc cutoff H tp t P old -> (e < ne)%nat -> (r < nrhos)%nat ->
  rsum n ((content r e) (fixed S e r)) = rsum n ((content r e) (S e r)) + rsum n (fun k => Rmax 0 (- (content r e) (S e r) k)).
Proof.
  intros C He Hr. rewrite <- rsum_plus. apply rsum_ext. intros k Hk.
  rewrite (proj1 (c76_contents_partial S e r C) He Hr k Hk).
  destruct (Rlt_dec ((content r e) (S e r) k) 0); [rewrite Rmax_left, Rmax_right by lra|rewrite Rmax_right, Rmax_left by lra]; ring.
Qed.

End Props.

(** ** A case: three flavours, maximal mixing of two *)
Definition P_ex := b1_proj 3 th_ex (fun _ _ => 0) order_ex Neutrino.
Definition half (k a b : nat) : R :=
  match k, a, b with
  | 0%nat, 0%nat, 0%nat | 0%nat, 1%nat, 1%nat | 1%nat, _, _ => 1/2
  | 0%nat, 0%nat, 1%nat | 0%nat, 1%nat, 0%nat => - (1/2)
  | _, _, _ => 0
  end.
Definition proj_ex (k : nat) : mat := fun a b =>
  rtc (match a, b with
       | 2%nat, 2%nat => if Nat.eqb k 2 then 1 else 0
       | 2%nat, _ | _, 2%nat => 0
       | _, _ => half k a b
       end).

Lemma squares : sin (PI / 4) * sin (PI / 4) = / 2 /\ cos (PI / 4) * cos (PI / 4) = / 2.
Proof.
  assert (S : sin (PI / 4) * sin (PI / 4) = / 2).
  { rewrite sin_PI4. replace (1 / sqrt 2 * (1 / sqrt 2)) with (/ (sqrt 2 * sqrt 2)) by (field; apply Rgt_not_eq, sqrt_lt_R0; lra).
    rewrite sqrt_sqrt by lra. reflexivity. }
  split; [exact S|]. rewrite <- sin_cos_PI4. exact S.
Qed.

Lemma P_ex_eq r k : (k < 3)%nat -> meq 3 (P_ex r k) (proj_ex k).
Proof.
  intros Hk. eapply meq_trans; [apply (frame_b1 3 th_ex (fun _ _ => 0) order_ex Neutrino r k Hk)|].
  destruct squares as [S C]. pose proof sin_cos_PI4 as SC.
  intros a b Ha Hb. unfold outer. rewrite !mixing_ex by assumption. cbn [fixed_phases].
  destruct k as [|[|[|k]]]; try lia; destruct a as [|[|[|a]]]; try lia; destruct b as [|[|[|b]]]; try lia;
    cbn [rot Nat.eqb delta proj_ex half]; apply Ceq; cbn; rewrite ?Ropp_0, ?cos_0, ?sin_0, ?SC; nra.
Qed.

(** content of a matrix after a phase [x] between the two *)
Definition turn_ex (x : R) (M : mat) (k : nat) : R :=
  let s := re (M 0 0)%nat + re (M 1 1)%nat in
  let d := cos x * (re (M 0 1)%nat + re (M 1 0)%nat) + sin x * (im (M 1 0)%nat - im (M 0 1)%nat) in
  match k with
  | 0%nat => s / 2 - d / 2
  | 1%nat => s / 2 + d / 2
  | _ => re (M 2 2)%nat
  end.
Lemma turn_content H t M k r x : (k < 3)%nat -> (re (H 1 1)%nat - re (H 0 0)%nat) * t = x ->
  expect 3 (evolve H t (P_ex r k)) M = turn_ex x M k.
Proof.
  intros Hk Hx. rewrite (expect_meq 3 _ _ _ _ (evolve_meq 3 H t _ _ (P_ex_eq r k Hk)) (meq_refl 3 M)).
  unfold expect, trace, mmult. cbn [csum]. unfold evolve.
  assert (A : (re (H 0 0)%nat - re (H 1 1)%nat) * t = - x) by (rewrite <- Hx; ring).
  assert (Z : forall y, (y - y) * t = 0) by (intro; ring).
  destruct k as [|[|[|k]]]; try lia; cbn [proj_ex half Nat.eqb turn_ex]; cbn; rewrite A, Hx, !Z, ?cos_0, ?sin_0, ?cos_neg, ?sin_neg; field.
Qed.

Lemma h0_ex E : E <> 0 -> (re (h0 3 true ediff_ex E 1 1)%nat - re (h0 3 true ediff_ex E 0 0)%nat) = PI / E.
Proof. intro N. unfold h0, dm2, mscale, b0_proj, ket_proj. cbn. field. exact N. Qed.

(** A state with two negative contents, read half an oscillation later: the
    projectors are exchanged; the negative ones become zero. *)
Definition neg_ex : mat := fun a b => match a, b with 0%nat, 0%nat => rtc (-2) | 2%nat, 2%nat => rtc 5 | 0%nat, 1%nat | 1%nat, 0%nat => rtc (-3) | _, _ => c0 end.
Definition sys_ex (e r : nat) : mat := neg_ex.
Example c76_nonvacuous old :
  let H := fun _ : nat => h0 3 true ediff_ex 1 in
  let S' := correct 1 2 3 BInter true 0 0 H 1 1 0 P_ex old sys_ex in
  let content k M := eval_flavor 3 BInter (H 1%nat) 1 0 (P_ex 0) M k in
  up_to_date 3 BInter true 0 H 1 1 P_ex old /\
  content 0%nat neg_ex = -4 /\ content 1%nat neg_ex = 2 /\ content 0%nat (S' 1 0)%nat = 0 /\ content 1%nat (S' 1 0)%nat = 2 /\ content 2%nat (S' 1 0)%nat = 5.
Proof.
  intros H S' content. assert (U : up_to_date 3 BInter true 0 H 1 1 P_ex old) by (split; [reflexivity|lra]).
  assert (C : forall k M, (k < 3)%nat -> content k M = turn_ex PI M k).
  { intros k M Hk. unfold content, eval_flavor. apply turn_content; [exact Hk|]. unfold H. rewrite h0_ex by lra. field. }
  assert (F : forall k, (k < 3)%nat -> content k (S' 1 0)%nat = Rmax 0 (content k neg_ex)).
  { intros k Hk. unfold content, S', P_ex. apply (c76_contents_partial 1 2 3 th_ex (fun _ _ => 0) order_ex Neutrino order_ex_ok BInter true 0 0 H 1 1 0 old sys_ex 1 0 U); lia. }
  split; [exact U|]. rewrite !F, !C by lia. unfold turn_ex, neg_ex. cbn. rewrite cos_PI, sin_PI.
  repeat split; try lra; try (rewrite Rmax_left; lra); rewrite Rmax_right; lra.
Qed.

(** ** The filter: a frequency is kept up to the ramp and dropped from the cutoff on, and falls evenly between *)
Theorem c76_filter : forall cutoff scale d d', 0 < scale <= cutoff ->
  0 <= low_pass cutoff scale d <= 1 /\ (Rabs d <= cutoff - scale -> low_pass cutoff scale d = 1) /\ (cutoff <= Rabs d -> low_pass cutoff scale d = 0) /\
  (Rabs d <= Rabs d' -> 0 <= low_pass cutoff scale d - low_pass cutoff scale d' <= (Rabs d' - Rabs d) / scale).
Proof.
  intros c s d d' [Hs Hc]. unfold low_pass. destruct (Rlt_dec 0 c); [|lra]. set (x := Rabs d). set (y := Rabs d').
  assert (I : 0 < / s) by (apply Rinv_0_lt_compat; exact Hs). assert (J : s * / s = 1) by (apply Rinv_r; lra).
  unfold Rdiv. generalize dependent (/ s). intros v I J.
  repeat split; intros; destruct (Rle_dec c x); destruct (Rle_dec x (c - s)); try lra; try (destruct (Rle_dec c y); destruct (Rle_dec y (c - s)); try lra); nra.
Qed.
Print Assumptions c76_filter.

(** ** Refutations *)

(** With the low-pass filter on, what is added is not the projector: a
    negative content stays negative. *)
Lemma node3 content Q M : node 3 content Q M = step content Q 2 (step content Q 1 (step content Q 0 M)).
Proof. reflexivity. Qed.
Theorem c76_filter_refuted old :
  let H := fun _ : nat => h0 3 true ediff_ex 1 in
  let S' := correct 1 1 3 BInter true 1 0 H 1 1 0 P_ex old sys_ex in
  eval_flavor 3 BInter (H 0%nat) 1 0 (P_ex 0) (S' 0 0)%nat 0 = -2.
Proof.
  intros H S'. unfold S', correct. rewrite positivize_at. cbn [Nat.ltb Nat.leb andb].
  assert (C : forall k M, (k < 3)%nat -> read_object 3 BInter H 1 0 P_ex 0 0 M k = turn_ex PI M k).
  { intros k M Hk. unfold read_object, eval_flavor. apply turn_content; [exact Hk|]. unfold H. rewrite h0_ex by lra. field. }
  change (eval_flavor 3 BInter (H 0%nat) 1 0 (P_ex 0)) with (read_object 3 BInter H 1 0 P_ex 0 0).
  set (Q := fun k => stored BInter true 1 0 (H 0%nat) 1 0 (P_ex 0) (old 0%nat 0%nat) k).
  assert (QE : forall k a b, (k < 2)%nat -> (a < 2)%nat -> (b < 2)%nat -> Q k a b = if Nat.eqb a b then rtc (1/2) else c0).
  { intros k a b Hk Ha Hb. unfold Q, stored, evolve_filtered. unfold evolve. rewrite (P_ex_eq 0 k) by lia.
    assert (L : low_pass 1 0 (re (H 0 0 1)%nat - re (H 0 1 0)%nat) = low_pass 1 0 (re (H 0 0 1)%nat - re (H 0 1 0)%nat)) by reflexivity.
    assert (PL : PI > 1) by (pose proof PI2_3_2; lra).
    assert (D : re (H 0%nat 1%nat 1%nat) - re (H 0%nat 0%nat 0%nat) = PI) by (unfold H; rewrite h0_ex by lra; field).
    assert (L0 : forall y, low_pass 1 0 (y - y) = 1).
    { intro y. replace (y - y) with 0 by ring. unfold low_pass. rewrite Rabs_R0. destruct (Rlt_dec 0 1); [|lra]. destruct (Rle_dec 1 0); [lra|]. destruct (Rle_dec 0 (1 - 0)); lra. }
    assert (L1 : low_pass 1 0 PI = 0).
    { unfold low_pass. rewrite Rabs_right by lra. destruct (Rlt_dec 0 1); [|lra]. destruct (Rle_dec 1 PI); [reflexivity|lra]. }
    assert (L2 : low_pass 1 0 (- PI) = 0).
    { unfold low_pass. rewrite Rabs_Ropp, Rabs_right by lra. destruct (Rlt_dec 0 1); [|lra]. destruct (Rle_dec 1 PI); [reflexivity|lra]. }
    assert (Z : forall y, (y - y) * (1 - 0) = 0) by (intro; ring).
    destruct a as [|[|a]]; try lia; destruct b as [|[|b]]; try lia; cbn [Nat.eqb];
      rewrite ?L0, ?D, ?L1, ?Z; replace (re (H 0%nat 0%nat 0%nat) - re (H 0%nat 1%nat 1%nat)) with (- PI) by lra;
      rewrite ?L2, ?rtc_0, ?cexp_0; try ring; destruct k as [|[|k]]; try lia; apply Ceq; cbn; lra. }
  rewrite node3.
  assert (S0 : step (read_object 3 BInter H 1 0 P_ex 0 0) Q 0 neg_ex = mplus neg_ex (mscale 4 (Q 0%nat))).
  { unfold step. rewrite C by lia. unfold turn_ex, neg_ex. cbn [re im rtc c0]. rewrite cos_PI, sin_PI.
    destruct (Rlt_dec _ 0) as [L|L]; [|exfalso; apply L; cbn; lra]. f_equal. f_equal. cbn. field. }
  change (sys_ex 0%nat 0%nat) with neg_ex. rewrite S0. clear S0. set (M1 := mplus neg_ex (mscale 4 (Q 0%nat))).
  assert (E1 : M1 0%nat 0%nat = rtc 0 /\ M1 1%nat 1%nat = rtc 2 /\ M1 0%nat 1%nat = rtc (-3) /\ M1 1%nat 0%nat = rtc (-3)).
  { unfold M1, mplus, mscale. rewrite !QE by lia. cbn [Nat.eqb neg_ex]. repeat split; apply Ceq; cbn; lra. }
  destruct E1 as (E00 & E11 & E01 & E10).
  assert (S1 : step (read_object 3 BInter H 1 0 P_ex 0 0) Q 1 M1 = M1).
  { unfold step. rewrite C by lia. unfold turn_ex. rewrite E00, E11, E01, E10, cos_PI, sin_PI. cbn.
    destruct (Rlt_dec _ 0) as [L|L]; [exfalso; lra|reflexivity]. }
  rewrite S1. clear S1.
  assert (S2 : step (read_object 3 BInter H 1 0 P_ex 0 0) Q 2 M1 = M1 \/ exists x, step (read_object 3 BInter H 1 0 P_ex 0 0) Q 2 M1 = mplus M1 (mscale x (Q 2%nat))).
  { unfold step. destruct (Rlt_dec _ 0); eauto. }
  assert (Q2 : forall a b, (a < 2)%nat -> (b < 2)%nat -> Q 2%nat a b = c0).
  { intros a b Ha Hb. unfold Q, stored, evolve_filtered, evolve. rewrite (P_ex_eq 0 2) by lia.
    destruct a as [|[|a]]; try lia; destruct b as [|[|b]]; try lia; cbn [proj_ex half]; apply Ceq; cbn; ring. }
  rewrite C by lia.
  destruct S2 as [->|[x ->]].
  - unfold turn_ex. rewrite E00, E11, E01, E10, cos_PI, sin_PI. cbn. lra.
  - unfold turn_ex, mplus, mscale. rewrite !Q2 by lia. rewrite E00, E11, E01, E10, cos_PI, sin_PI. cbn. lra.
Qed.

(** The projectors of the mass basis are those left by the last evolution in
    the interaction basis.  Half an oscillation into it, the correction adds to
    another flavour: the negative content stays and the other flavour gains. *)
Definition left_ex (r e k : nat) : mat := evolve (h0 3 true ediff_ex 1) (1 - 0) (P_ex r k).
Definition minus_ex (e r : nat) : mat := fun a b => copp (proj_ex 0 a b).
Theorem c76_stale_refuted :
  let H := fun _ : nat => h0 3 true ediff_ex 1 in
  let S' := correct 1 1 3 BMass true 0 0 H 1 1 0 P_ex left_ex minus_ex in
  let content k M := eval_flavor 3 BMass (H 0%nat) 1 0 (P_ex 0) M k in
  (forall r e k, stored BInter true 0 0 (H e) 1 0 (P_ex r) (left_ex r e) k = fun a b => cmult (rtc 1) (left_ex r e k a b)) /\
  content 0%nat (minus_ex 0 0)%nat = -1 /\ content 0%nat (S' 0 0)%nat = -1 /\
  content 1%nat (minus_ex 0 0)%nat = 0 /\ content 1%nat (S' 0 0)%nat = 1.
Proof.
  intros H S' content.
  assert (C : forall k M, (k < 3)%nat -> content k M = turn_ex 0 M k).
  { intros k M Hk. unfold content, eval_flavor.
    rewrite <- (turn_content mzero 0 M k 0 0 Hk) by ring. apply expect_meq; [|apply meq_refl]. apply meq_sym, evolve_mzero. }
  assert (D : (re (h0 3 true ediff_ex 1 1 1)%nat - re (h0 3 true ediff_ex 1 0 0)%nat) * (1 - 0) = PI) by (rewrite h0_ex by lra; field).
  assert (D' : (re (h0 3 true ediff_ex 1 0 0)%nat - re (h0 3 true ediff_ex 1 1 1)%nat) * (1 - 0) = - PI) by lra.
  assert (Z : forall y, (y - y) * (1 - 0) = 0) by (intro; ring).
  assert (QE : forall k a b, (k < 2)%nat -> (a < 2)%nat -> (b < 2)%nat -> left_ex 0 0 k a b = proj_ex (1 - k) a b).
  { intros k a b Hk Ha Hb. unfold left_ex, evolve. rewrite (P_ex_eq 0 k) by lia.
    destruct a as [|[|a]]; try lia; destruct b as [|[|b]]; try lia; rewrite ?D, ?D', ?Z;
      destruct k as [|[|k]]; try lia; apply Ceq; cbn; rewrite ?cos_neg, ?sin_neg, ?cos_PI, ?sin_PI, ?cos_0, ?sin_0; lra. }
  split. { intros r e k. unfold stored, evolve_filtered, left_ex, low_pass. destruct (Rlt_dec 0 0); [lra|reflexivity]. }
  assert (F : S' 0%nat 0%nat = node 3 (fun M k => content k M) (left_ex 0 0) (minus_ex 0 0)%nat).
  { unfold S', correct. rewrite positivize_at. reflexivity. }
  rewrite F, node3. clear F.
  assert (S0 : step (fun M k => content k M) (left_ex 0 0) 0 (minus_ex 0%nat 0%nat) = mplus (minus_ex 0%nat 0%nat) (mscale 1 (left_ex 0 0 0)%nat)).
  { unfold step. rewrite C by lia. unfold turn_ex, minus_ex. cbn. rewrite cos_0, sin_0.
    destruct (Rlt_dec _ 0) as [L|L]; [|exfalso; apply L; lra]. f_equal. f_equal. lra. }
  rewrite S0. set (M1 := mplus (minus_ex 0%nat 0%nat) (mscale 1 (left_ex 0 0 0)%nat)).
  assert (E1 : M1 0%nat 0%nat = rtc 0 /\ M1 1%nat 1%nat = rtc 0 /\ M1 0%nat 1%nat = rtc 1 /\ M1 1%nat 0%nat = rtc 1).
  { unfold M1, mplus, mscale, minus_ex. rewrite !QE by lia. repeat split; apply Ceq; cbn; lra. }
  destruct E1 as (E00 & E11 & E01 & E10).
  assert (S1 : step (fun M k => content k M) (left_ex 0 0) 1 M1 = M1).
  { unfold step. rewrite C by lia. unfold turn_ex. rewrite E00, E11, E01, E10, cos_0, sin_0. cbn.
    destruct (Rlt_dec _ 0) as [L|L]; [exfalso; lra|reflexivity]. }
  rewrite S1. clear S1 S0.
  assert (S2 : step (fun M k => content k M) (left_ex 0 0) 2 M1 = M1 \/ exists x, step (fun M k => content k M) (left_ex 0 0) 2 M1 = mplus M1 (mscale x (left_ex 0 0 2)%nat)).
  { unfold step. destruct (Rlt_dec _ 0); eauto. }
  assert (Q2 : forall a b, (a < 2)%nat -> (b < 2)%nat -> left_ex 0 0 2 a b = c0).
  { intros a b Ha Hb. unfold left_ex, evolve. rewrite (P_ex_eq 0 2) by lia.
    destruct a as [|[|a]]; try lia; destruct b as [|[|b]]; try lia; cbn [proj_ex half]; apply Ceq; cbn; ring. }
  rewrite !C by lia.
  assert (T : forall k, (k < 2)%nat -> turn_ex 0 (step (fun M k => content k M) (left_ex 0 0) 2 M1) k = turn_ex 0 M1 k).
  { intros k Hk. destruct S2 as [->|[x ->]]; [reflexivity|].
    assert (Z2 : forall a b, (a < 2)%nat -> (b < 2)%nat -> mplus M1 (mscale x (left_ex 0 0 2)%nat) a b = M1 a b).
    { intros a b Ha Hb. unfold mplus at 1, mscale. rewrite Q2 by assumption. apply Ceq; cbn [re im cplus cmult c0 rtc]; ring. }
    unfold turn_ex. rewrite !Z2 by lia. destruct k as [|[|k]]; try lia; reflexivity. }
  rewrite !T by lia. unfold turn_ex. rewrite E00, E11, E01, E10. unfold minus_ex. cbn. rewrite !cos_0, !sin_0.
  repeat split; lra.
Qed.

(** The correction works at the nodes.  A state with no negative content there
    is left as it is, though the content of an energy in between is negative. *)
Definition swing_ex (e r : nat) : mat := fun a b =>
  match a, b with 0%nat, 0%nat | 1%nat, 1%nat => rtc (1/4) | 0%nat, 1%nat => mkC 0 (1/2) | 1%nat, 0%nat => mkC 0 (-(1/2)) | _, _ => c0 end.
Definition nodes_ex (e : nat) : R := match e with 0%nat => 1 | _ => 2 end.
Theorem c76_between_refuted old :
  let H := fun e : nat => h0 3 true ediff_ex (nodes_ex e) in
  let S' := correct 1 2 3 BInter true 0 0 H 2 2 0 P_ex old swing_ex in
  up_to_date 3 BInter true 0 H 2 2 P_ex old /\
  (forall e k, (e < 2)%nat -> (k < 3)%nat -> 0 <= eval_flavor 3 BInter (H e) 2 0 (P_ex 0) (swing_ex e 0) k) /\
  (forall e, (e < 2)%nat -> S' e 0%nat = swing_ex e 0) /\
  eval_flavor 3 BInter (h0 3 true ediff_ex (4/3)) 2 0 (P_ex 0)
    (mplus (mscale (2/3) (S' 0 0)%nat) (mscale (1/3) (S' 1 0)%nat)) 0 = -(1/4).
Proof.
  intros H S'.
  assert (C : forall E k M, E <> 0 -> (k < 3)%nat -> eval_flavor 3 BInter (h0 3 true ediff_ex E) 2 0 (P_ex 0) M k = turn_ex (2 * PI / E) M k).
  { intros E k M HE Hk. unfold eval_flavor. apply turn_content; [exact Hk|]. rewrite h0_ex by exact HE. field. exact HE. }
  assert (NE : forall e, nodes_ex e <> 0) by (intros [|e]; cbn; lra).
  assert (Sw : forall e x k, turn_ex x (swing_ex e 0) k = match k with 0%nat => 1/4 + sin x / 2 | 1%nat => 1/4 - sin x / 2 | _ => 0 end).
  { intros e x k. unfold turn_ex, swing_ex. destruct k as [|[|k]]; cbn; field. }
  assert (Sin : forall e, sin (2 * PI / nodes_ex e) = 0).
  { intros [|e]; cbn; [replace (2 * PI / 1) with (2 * PI) by field; apply sin_2PI|replace (2 * PI / 2) with PI by field; apply sin_PI]. }
  assert (NN : forall e k, (e < 2)%nat -> (k < 3)%nat -> 0 <= eval_flavor 3 BInter (H e) 2 0 (P_ex 0) (swing_ex e 0) k).
  { intros e k _ Hk. unfold H. rewrite C, Sw, Sin by auto. destruct k as [|[|k]]; lra. }
  split; [split; [reflexivity|lra]|]. split; [exact NN|].
  assert (Same : forall e, (e < 2)%nat -> S' e 0%nat = swing_ex e 0).
  { intros e He. unfold S', correct. rewrite positivize_at. rewrite (proj2 (Nat.ltb_lt e 2) He). cbn [Nat.ltb Nat.leb andb].
    assert (NS : forall Q k, (k < 3)%nat -> step (read_object 3 BInter H 2 0 P_ex 0 e) Q k (swing_ex e 0) = swing_ex e 0).
    { intros Q k Hk. unfold step, read_object. destruct (Rlt_dec _ 0) as [L|L]; [|reflexivity]. pose proof (NN e k He Hk). lra. }
    rewrite node3, !NS by lia. reflexivity. }
  split; [exact Same|]. rewrite !Same by lia. rewrite C by (lra || lia).
  replace (2 * PI / (4 / 3)) with (3 * (PI / 2)) by field.
  unfold turn_ex, mplus, mscale, swing_ex. cbn.
  replace (3 * (PI / 2)) with (PI / 2 + PI) by field. rewrite neg_sin, neg_cos, sin_PI2, cos_PI2. lra.
Qed.

Print Assumptions c76_contents_partial.
Print Assumptions c76_not_negative_partial.
Print Assumptions c76_coherences_partial.
Print Assumptions c76_again_partial.
Print Assumptions c76_total_partial.
Print Assumptions c76_nonvacuous.
Print Assumptions c76_filter_refuted.
Print Assumptions c76_stale_refuted.
Print Assumptions c76_between_refuted.
