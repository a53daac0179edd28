(** C87: averaged oscillations. *)
From Coq Require Import Reals List Arith Bool Lia Lra.
From Verif Require Import CMatrix FlavorModel FlavorProofs FlavorProps AvgModel AvgProofs.
Import ListNotations.
Open Scope R_scope.

(** Every oscillation phase is beyond the scale. *)
Definition all_fast (n : nat) (lambda : nat -> R) (L scale : R) : Prop :=
  forall a b, (a < n)%nat -> (b < n)%nat -> a <> b -> scale < Rabs ((lambda a - lambda b) * L).
(** None is. *)
Definition all_slow (n : nat) (lambda : nat -> R) (L scale : R) : Prop :=
  forall a b, (a < n)%nat -> (b < n)%nat -> Rabs ((lambda a - lambda b) * L) <= scale.

(** Probability to go from flavour [j] to flavour [k] through whichever mass. *)
Definition via_masses (n : nat) (V : mat) (j k : nat) : R := rsum n (fun a => cnorm2 (V a j) * cnorm2 (V a k)).

Lemma ratio_via n V v k : ratio n (dagger V) v k = rsum n (fun j => v j * via_masses n V j k).
Proof.
  unfold ratio, via_masses, dagger. rewrite rsum_swap. apply rsum_ext. intros j _.
  rewrite <- rsum_scal. apply rsum_ext. intros a _. rewrite !cnorm2_conj. ring.
Qed.

(** With everything averaged, the flavours seen are those of the textbook
    formula, and the two computations of the example agree. *)
Theorem c87_full_average n th dl order nt r b ediff E t t0 scale v k : pairs_ok n order -> (k < n)%nat -> E <> 0 ->
  b <> BMass -> all_fast n (splitting ediff E) (t - t0) scale ->
  let P := b1_proj n th dl order nt r in
  let V := mixing n th (fixed_phases nt r dl) order in
  eval_flavor_avg n b (h0 n true ediff E) t t0 scale P (ini_state n BFlavor P v) k =
    rsum n (fun j => v j * via_masses n V j k) /\
  eval_flavor_avg n b (h0 n true ediff E) t t0 scale P (ini_state n BFlavor P v) k =
    ratio n (transformation n th dl order) v k.
Proof.
  intros O Hk HE Nb Fast P V. pose proof (frame_b1 n th dl order nt r) as F. fold V P in F.
  assert (Q : eval_flavor_avg n b (h0 n true ediff E) t t0 scale P (ini_state n BFlavor P v) k =
              ratio n (dagger V) v k).
  { transitivity (expect n (avg_evolve scale (h0 n true ediff E) (t - t0) (P k)) (ini_state n BFlavor P v));
      [destruct b; [reflexivity|contradiction|reflexivity]|].
    rewrite avg_all.
    - unfold ratio. apply rsum_ext. intros a Ha. unfold ini_state. rewrite (ini_diag n V P v a F Ha).
      rewrite (F k Hk a a Ha Ha). unfold outer. rewrite mult_conj, <- rtc_mult. cbn [re rtc].
      rewrite <- rsum_scal. apply rsum_ext. intros j _. unfold dagger. rewrite !cnorm2_conj. ring.
    - intros a c Ha Hc N. rewrite !h0_diag by assumption. apply Fast; assumption. }
  split; [rewrite Q; apply ratio_via|]. rewrite Q. unfold ratio, transformation, dagger. apply rsum_ext. intros a _.
  apply rsum_ext. intros j _. rewrite !cnorm2_conj. unfold V. rewrite !fixed_moduli. reflexivity.
Qed.

(** With the scale beyond every phase the averaged read-out is the ordinary one,
    for every state. *)
Theorem c87_no_average n b H t t0 scale P rho k : all_slow n (fun a => re (H a a)) (t - t0) scale ->
  eval_flavor_avg n b H t t0 scale P rho k = eval_flavor n b H t t0 P rho k /\
  eval_mass_avg n b H t t0 scale rho k = eval_mass n b H t t0 rho k.
Proof.
  intro S. destruct b; cbn; split; try reflexivity; (apply expect_meq; [apply avg_same; exact S|apply meq_refl]).
Qed.

(** Whatever the scale, the flavours add up to the total of the state: averaging
    makes and loses nothing. *)
Theorem c87_total n th dl order nt r b H t t0 scale rho : pairs_ok n order ->
  rsum n (eval_flavor_avg n b H t t0 scale (b1_proj n th dl order nt r) rho) = re (trace n rho) /\
  rsum n (eval_flavor_avg n b H t t0 scale (b1_proj n th dl order nt r) rho) =
  rsum n (eval_flavor n b H t t0 (b1_proj n th dl order nt r) rho).
Proof.
  intro O. pose proof (mixing_unitary n th (fixed_phases nt r dl) order O) as U.
  pose proof (frame_b1 n th dl order nt r) as F.
  assert (A : rsum n (eval_flavor_avg n b H t t0 scale (b1_proj n th dl order nt r) rho) = re (trace n rho)).
  { destruct b.
    - change (rsum n (fun k => expect n (avg_evolve scale H (t - t0) (b1_proj n th dl order nt r k)) rho) = re (trace n rho)).
      rewrite <- expect_msum. unfold expect. f_equal. apply trace_meq.
      eapply meq_trans; [apply mmult_meq; [apply avg_sum, (frame_sum n _ _ U F)|apply meq_refl]|]. apply mmult_id_l.
    - apply (frame_total n _ _ rho U F).
    - change (rsum n (fun k => expect n (avg_evolve scale H (t - t0) (b1_proj n th dl order nt r k)) rho) = re (trace n rho)).
      rewrite <- expect_msum. unfold expect. f_equal. apply trace_meq.
      eapply meq_trans; [apply mmult_meq; [apply avg_sum, (frame_sum n _ _ U F)|apply meq_refl]|]. apply mmult_id_l. }
  split; [exact A|]. rewrite A, eval_total by exact O. reflexivity.
Qed.

(** The content of the masses never depends on the scale nor on the time passed. *)
Theorem c87_mass n b H t t0 scale rho k :
  eval_mass_avg n b H t t0 scale rho k = expect n (b0_proj k) rho /\
  eval_mass_avg n b H t t0 scale rho k = eval_mass n b H t t0 rho k.
Proof.
  assert (A : eval_mass_avg n b H t t0 scale rho k = expect n (b0_proj k) rho).
  { destruct b; cbn; try reflexivity; (apply expect_meq; [apply avg_b0|apply meq_refl]). }
  split; [exact A|]. rewrite A. destruct b; cbn; try reflexivity; symmetry;
  (apply expect_meq; [|apply meq_refl]);
  (eapply meq_trans; [|apply (avg_b0 n (Rabs (Rmax 0 0)) mzero 0)]);
  (intros a c Ha Hc; unfold avg_evolve, evolve;
   destruct (Nat.eq_dec a c) as [->|N];
   [rewrite (proj2 (fast_not _ _ _ _ _)) by (left; reflexivity); f_equal; f_equal; cbn; ring|];
   assert (Z : b0_proj k a c = c0) by
     (unfold b0_proj, ket_proj; destruct (Nat.eq_dec a k) as [->|M];
      [rewrite (delta_ne c k) by congruence|rewrite (delta_ne a k) by assumption]; ring);
   rewrite Z; destruct (fast _ _ _ _ _); ring).
Qed.

(** Fully averaged probabilities: none negative, each initial flavour ends up
    somewhere, each final one comes from somewhere, they are the same back and
    forth and for neutrinos and antineutrinos, and a flavour keeps at least one
    n-th of itself. *)
Theorem c87_probabilities n th dl order nt r j k : pairs_ok n order -> (j < n)%nat -> (k < n)%nat ->
  let p := via_masses n (mixing n th (fixed_phases nt r dl) order) in
  0 <= p j k /\ rsum n (p j) = 1 /\ rsum n (fun i => p i k) = 1 /\ p j k = p k j /\
  p j k = via_masses n (mixing n th dl order) j k /\ 1 <= INR n * p k k.
Proof.
  intros O Hj Hk p. pose proof (mixing_unitary n th (fixed_phases nt r dl) order O) as U.
  set (V := mixing n th (fixed_phases nt r dl) order) in *.
  assert (Sy : forall a b, p a b = p b a) by (intros a b; apply rsum_ext; intros; ring).
  assert (Row : forall a, (a < n)%nat -> rsum n (p a) = 1).
  { intros a Ha. unfold p, via_masses. rewrite rsum_swap. rewrite <- (moduli_col n V a U Ha). apply rsum_ext. intros c Hc.
    rewrite rsum_scal, (moduli_row n V c U Hc). ring. }
  split; [|split; [|split; [|split; [|split]]]].
  - apply rsum_pos. intros a _. apply Rmult_le_pos; apply cnorm2_pos.
  - apply Row. exact Hj.
  - rewrite (rsum_ext n _ (p k)) by (intros; apply Sy). apply Row, Hk.
  - apply Sy.
  - apply rsum_ext. intros a _. unfold V. rewrite !fixed_moduli. reflexivity.
  - apply (squares n (fun a => cnorm2 (V a k))). apply (moduli_col n V k U Hk).
Qed.

(** So averaged fluxes lie between the smallest and the largest initial ones. *)
Theorem c87_between n th dl order nt r b ediff E t t0 scale v k lo hi : pairs_ok n order -> (k < n)%nat -> E <> 0 ->
  b <> BMass -> all_fast n (splitting ediff E) (t - t0) scale ->
  (forall j, (j < n)%nat -> lo <= v j <= hi) ->
  let P := b1_proj n th dl order nt r in
  lo <= eval_flavor_avg n b (h0 n true ediff E) t t0 scale P (ini_state n BFlavor P v) k <= hi.
Proof.
  intros O Hk HE Nb Fast B P.
  destruct (c87_full_average n th dl order nt r b ediff E t t0 scale v k O Hk HE Nb Fast) as (Q & _). cbv zeta in Q.
  fold P in Q. rewrite Q.
  rewrite (rsum_ext n _ (fun j => via_masses n (mixing n th (fixed_phases nt r dl) order) j k * v j)) by (intros; ring).
  apply mean_between.
  - intros j Hj. apply (c87_probabilities n th dl order nt r j k O Hj Hk).
  - apply (c87_probabilities n th dl order nt r k k O Hk Hk).
  - exact B.
Qed.

(** Why it is called an average: at scale zero and any length, for every state,
    the value is the mean of the oscillating content over long paths — the
    integral of the content up to [L] stays within a constant of [L] times it. *)
Theorem c87_time_average n H t0 P rho k L0 : L0 <> 0 ->
  let avg := eval_flavor_avg n BInter H (t0 + L0) t0 0 P rho k in
  exists (G : R -> R) (bound : R),
    (forall L, derivable_pt_lim G L (eval_flavor n BInter H (t0 + L) t0 P rho k)) /\
    forall L, Rabs (G L - G 0 - L * avg) <= bound.
Proof.
  intros HL avg.
  set (w := fun a c => re (H a a) - re (H c c)). set (m := fun a c => (P k a c * rho c a)%C).
  exists (fun L => rsum n (fun a => rsum n (fun c => prim1 (w a c) (m a c) L))),
    (rsum n (fun a => rsum n (fun c =>
      if Req_EM_T (w a c) 0 then 0 else (Rabs (re (m a c)) + 2 * Rabs (im (m a c))) / Rabs (w a c)))).
  split.
  - intro L. cbn [eval_flavor]. rewrite plain_value. replace (t0 + L - t0) with L by ring.
    apply (rsum_deriv n (fun a L => rsum n (fun c => prim1 (w a c) (m a c) L))). intros a _.
    apply (rsum_deriv n (fun c L => prim1 (w a c) (m a c) L)). intros c _. apply prim1_deriv.
  - intro L.
    assert (A : avg = rsum n (fun a => rsum n (fun c => if Req_EM_T (w a c) 0 then re (m a c) else 0))).
    { unfold avg. cbn [eval_flavor_avg]. rewrite avg_value. replace (t0 + L0 - t0) with L0 by ring.
      apply rsum_ext. intros a _. apply rsum_ext. intros c _. fold (w a c) (m a c).
      destruct (Req_EM_T (w a c) 0) as [Z|Z].
      - rewrite (proj2 (fast_not _ _ _ _ _)).
        + rewrite Z, Rmult_0_l, cexp_0. cbn. ring.
        + right. fold (w a c). rewrite Z, Rmult_0_l, Rabs_R0. lra.
      - rewrite (proj2 (fast_iff _ _ _ _ _)); [reflexivity|]. split.
        + intros ->. apply Z. unfold w. ring.
        + fold (w a c). apply Rabs_pos_lt. apply Rmult_integral_contrapositive_currified; assumption. }
    rewrite A, <- rsum_scal, <- !rsum_minus. eapply Rle_trans; [apply rsum_abs|]. apply rsum_le. intros a _.
    rewrite <- rsum_scal, <- !rsum_minus. eapply Rle_trans; [apply rsum_abs|]. apply rsum_le. intros c _.
    apply prim1_bound.
Qed.

(** Oscillations on top of the shortcut for constant density: in the mass basis
    the scale is ignored, so asking for full averaging gives the content at that
    very distance.  Two flavours of maximal mixing, half an oscillation away: all
    of the flux has changed flavour where the average would be one half. *)
Definition th45 (i j : nat) : R := PI / 4.
Definition ph0 (i j : nat) : R := 0.
Definition only (k j : nat) : R := if Nat.eqb j k then 1 else 0.

Lemma sqrt2_sq : 1 / sqrt 2 * (1 / sqrt 2) = 1 / 2.
Proof.
  assert (A : sqrt 2 * sqrt 2 = 2) by (apply sqrt_sqrt; lra).
  assert (B : sqrt 2 <> 0) by (intro Z; rewrite Z in A; lra).
  field_simplify_eq; [|exact B]. replace (sqrt 2 ^ 2) with (sqrt 2 * sqrt 2) by ring. lra.
Qed.

Lemma mix45 a k : (a < 2)%nat -> (k < 2)%nat -> mixing 2 th45 ph0 [(0, 1)%nat] a k =
  rtc (if Nat.eqb a 1 && Nat.eqb k 0 then - (1 / sqrt 2) else 1 / sqrt 2).
Proof.
  intros Ha Hk. unfold mixing, mmult, th45, ph0.
  destruct a as [|[|a]]; [| |lia]; (destruct k as [|[|k]]; [| |lia]);
  unfold rot, mid, delta; cbn [csum Nat.eqb andb]; rewrite ?sin_PI4, ?cos_PI4, ?Ropp_0, ?cexp_0; apply Ceq; cbn; ring.
Qed.

Definition half_way : mat := h0 2 true (fun _ => PI) (1 / 2).
Definition P45 := b1_proj 2 th45 ph0 [(0, 1)%nat] Neutrino 0.

Theorem c87_mass_basis_refuted :
  let p := cross_all half_way (start (ini_state 2 BFlavor P45 (only 0))) [Shortcut 1] in
  all_fast 2 (fun a => re (half_way a a)) (p_time p - 0) 0 /\
  eval_flavor_avg 2 (p_basis p) half_way (p_time p) 0 0 P45 (p_rho p) 0 = 0 /\
  eval_flavor_avg 2 BInter half_way (p_time p) 0 0 P45 (ini_state 2 BFlavor P45 (only 0)) 0 = 1 / 2.
Proof.
  cbv zeta.
  assert (HD : forall a, (a < 2)%nat -> re (half_way a a) = match a with O => 0 | _ => PI end).
  { intros a Ha. unfold half_way. rewrite h0_diag by (auto; lra). unfold splitting. destruct a; [reflexivity|]. field. }
  assert (Fast : all_fast 2 (fun a => re (half_way a a)) 1 0).
  { intros a b Ha Hb N. rewrite !HD by assumption. pose proof PI_RGT_0.
    destruct a as [|[|a]]; [| |lia]; (destruct b as [|[|b]]; [| |lia]); try congruence;
    apply Rabs_pos_lt; lra. }
  assert (PE : forall k a c, (k < 2)%nat -> (a < 2)%nat -> (c < 2)%nat ->
    P45 k a c = rtc (if Nat.eqb k 0 && negb (Nat.eqb a c) then - (1 / 2) else 1 / 2)).
  { intros k a c Hk Ha Hc. unfold P45. rewrite (frame_b1 2 th45 ph0 [(0, 1)%nat] Neutrino 0 k Hk a c Ha Hc).
    unfold outer. cbn [fixed_phases]. rewrite !mix45, conj_rtc, <- rtc_mult by assumption. f_equal.
    pose proof sqrt2_sq as Q.
    destruct k as [|[|k]]; [| |lia]; (destruct a as [|[|a]]; [| |lia]); (destruct c as [|[|c]]; [| |lia]);
    cbn [Nat.eqb andb negb]; lra. }
  cbn [cross_all fold_left cross start p_time p_basis p_rho p_numerics].
  split; [|split].
  - replace (0 + 1 - 0) with 1 by ring. exact Fast.
  - cbn [eval_flavor_avg]. unfold shortcut_vacuum.
    unfold expect, trace, mmult. cbn [csum]. unfold evolve, ini_state. rewrite !msum_at. cbn [csum].
    unfold only, mscale. cbn [Nat.eqb].
    rewrite !HD, !PE by lia. cbn [Nat.eqb andb negb]. unfold cexp.
    replace ((PI - 0) * - (1)) with (- PI) by ring.
    replace ((0 - PI) * - (1)) with PI by ring.
    replace ((0 - 0) * - (1)) with 0 by ring.
    replace ((PI - PI) * - (1)) with 0 by ring.
    rewrite sin_neg, cos_neg, sin_PI, cos_PI, sin_0, cos_0. cbn. field.
  - cbn [eval_flavor_avg]. replace (0 + 1 - 0) with 1 by ring. rewrite avg_all by (exact Fast).
    unfold ini_state. cbn [rsum]. rewrite !msum_at. cbn [csum]. unfold mscale, only. cbn [Nat.eqb].
    rewrite !PE by lia. cbn [Nat.eqb andb negb]. cbn. field.
Qed.

(** With only some phases beyond the scale the result need not be a
    probability: with three masses in equal steps, one full oscillation between
    neighbours and a scale of one and a half, the averaged content of muon
    neutrinos in a beam that was all electron neutrinos is negative.  Without
    averaging it is zero there. *)
Definition th3 (i j : nat) : R := match i, j with 0%nat, 2%nat => PI / 6 | _, _ => PI / 4 end.
Definition o3 := [(0, 1); (0, 2); (1, 2)]%nat.
Definition P3 := b1_proj 3 th3 ph0 o3 Neutrino 0.
Definition steps : mat := h0 3 true (fun a => 2 * PI * INR a) (1 / 2).

Lemma sqrt3_sq : sqrt 3 / 2 * (sqrt 3 / 2) = 3 / 4.
Proof. assert (A : sqrt 3 * sqrt 3 = 3) by (apply sqrt_sqrt; lra). lra. Qed.

Definition col_e (a : nat) : R :=
  match a with 0%nat => 1 / sqrt 2 * (sqrt 3 / 2) | 1%nat => - (1 / sqrt 2 * (sqrt 3 / 2)) | _ => - (1 / 2) end.
Definition col_mu (a : nat) : R :=
  match a with 0%nat => 1 / 4 | 1%nat => 3 / 4 | _ => - (1 / sqrt 2 * (sqrt 3 / 2)) end.
Lemma mix3 a : (a < 3)%nat ->
  mixing 3 th3 ph0 o3 a 0%nat = rtc (col_e a) /\ mixing 3 th3 ph0 o3 a 1%nat = rtc (col_mu a).
Proof.
  intros Ha. pose proof sqrt2_sq as Q. unfold mixing, o3, mmult, th3, ph0.
  set (x := 1 / sqrt 2) in *.
  assert (Cx : cos (PI / 4) = x) by apply cos_PI4. assert (Sx : sin (PI / 4) = x) by apply sin_PI4.
  destruct a as [|[|[|a]]]; [| | |lia]; split;
  unfold rot, mid, delta; cbn [csum Nat.eqb andb]; rewrite ?Cx, ?Sx, ?cos_PI6, ?sin_PI6, ?Ropp_0, ?cexp_0;
  unfold col_e, col_mu; fold x; apply Ceq; cbn; nra.
Qed.

Lemma P3_at k a c : (k < 2)%nat -> (a < 3)%nat -> (c < 3)%nat ->
  P3 k a c = rtc (if Nat.eqb k 0 then col_e a * col_e c else col_mu a * col_mu c).
Proof.
  intros Hk Ha Hc. unfold P3. rewrite (frame_b1 3 th3 ph0 o3 Neutrino 0 k ltac:(lia) a c Ha Hc). unfold outer.
  cbn [fixed_phases]. destruct k as [|[|k]]; [| |lia]; cbn [Nat.eqb].
  - rewrite (proj1 (mix3 a Ha)), (proj1 (mix3 c Hc)), conj_rtc, <- rtc_mult. reflexivity.
  - rewrite (proj2 (mix3 a Ha)), (proj2 (mix3 c Hc)), conj_rtc, <- rtc_mult. reflexivity.
Qed.

Lemma steps_at a : (a < 3)%nat -> re (steps a a) = 2 * PI * INR a.
Proof.
  intro Ha. unfold steps. rewrite h0_diag by (auto; lra). unfold splitting. destruct a; [cbn; ring|]. field.
Qed.

Lemma full_turns a c : (a < 3)%nat -> (c < 3)%nat -> cexp ((re (steps a a) - re (steps c c)) * 1) = c1.
Proof.
  intros Ha Hc. rewrite !steps_at by assumption.
  replace ((2 * PI * INR a - 2 * PI * INR c) * 1) with (2 * INR a * PI + - (2 * INR c * PI)) by ring.
  assert (Q : forall m, cexp (2 * INR m * PI) = c1).
  { intro m. unfold cexp. replace (2 * INR m * PI) with (0 + 2 * INR m * PI) by ring.
    rewrite cos_period, sin_period, cos_0, sin_0. reflexivity. }
  rewrite <- cexp_plus, <- cexp_conj, !Q, conj_1. ring.
Qed.

Theorem c87_partial_average_refuted :
  eval_flavor_avg 3 BInter steps 1 0 (3 * PI) P3 (ini_state 3 BFlavor P3 (only 0)) 1 = - (3 / 32) /\
  eval_flavor 3 BInter steps 1 0 P3 (ini_state 3 BFlavor P3 (only 0)) 1 = 0.
Proof.
  pose proof PI_RGT_0 as Pi.
  assert (Rho : forall a c, (a < 3)%nat -> (c < 3)%nat ->
    ini_state 3 BFlavor P3 (only 0) a c = rtc (col_e a * col_e c)).
  { intros a c Ha Hc. unfold ini_state. rewrite msum_at. cbn [csum]. unfold mscale, only. cbn [Nat.eqb].
    rewrite (P3_at 0) by lia. cbn [Nat.eqb]. rewrite rtc_0, rtc_1. ring. }
  assert (Sl : forall a c, (a < 3)%nat -> (c < 3)%nat ->
    fast (3 * PI) steps 1 a c = (Nat.eqb a 0 && Nat.eqb c 2) || (Nat.eqb a 2 && Nat.eqb c 0)).
  { intros a c Ha Hc. destruct a as [|[|[|a]]]; [| | |lia]; (destruct c as [|[|[|c]]]; [| | |lia]); cbn [Nat.eqb andb orb];
    try (apply fast_not; left; reflexivity);
    try (apply fast_not; right; rewrite !steps_at by lia; cbn [INR]; apply Rabs_le; lra);
    (apply fast_iff; split; [lia|]; rewrite !steps_at by lia; cbn [INR]).
    - rewrite Rabs_left; lra.
    - rewrite Rabs_right; lra. }
  pose proof sqrt2_sq as Q2. pose proof sqrt3_sq as Q3.
  assert (Q : (1 / sqrt 2 * (sqrt 3 / 2)) * (1 / sqrt 2 * (sqrt 3 / 2)) = 3 / 8).
  { replace (1 / sqrt 2 * (sqrt 3 / 2) * (1 / sqrt 2 * (sqrt 3 / 2))) with
      ((1 / sqrt 2 * (1 / sqrt 2)) * (sqrt 3 / 2 * (sqrt 3 / 2))) by ring. rewrite Q2, Q3. lra. }
  set (y := 1 / sqrt 2 * (sqrt 3 / 2)) in *.
  split.
  - cbn [eval_flavor_avg]. rewrite avg_value. replace (1 - 0) with 1 by ring. cbn [rsum].
    rewrite !Sl, !full_turns, !Rho, !(P3_at 1) by lia. cbn [Nat.eqb andb orb]. unfold col_e, col_mu. fold y.
    cbn [re im cmult rtc c1]. nra.
  - cbn [eval_flavor]. rewrite plain_value. replace (1 - 0) with 1 by ring. cbn [rsum].
    rewrite !full_turns, !Rho, !(P3_at 1) by lia. cbn [Nat.eqb andb orb]. unfold col_e, col_mu. fold y.
    cbn [re im cmult rtc c1]. nra.
Qed.

(** Non-vacuity: two maximally mixed flavours, half an oscillation away. *)
Example c87_case :
  all_fast 2 (splitting (fun _ => PI) (1 / 2)) (1 - 0) 0 /\ all_slow 2 (splitting (fun _ => PI) (1 / 2)) (1 - 0) 4 /\
  via_masses 2 (mixing 2 th45 ph0 [(0, 1)%nat]) 0 1 = 1 / 2.
Proof.
  pose proof PI_RGT_0 as Pi. pose proof PI_4 as Pj. split; [|split].
  - intros a b Ha Hb N. apply Rabs_pos_lt. destruct a as [|[|a]]; [| |lia]; (destruct b as [|[|b]]; [| |lia]);
    try congruence; unfold splitting; intro Z; field_simplify_eq in Z; lra.
  - intros a b Ha Hb. apply Rabs_le. destruct a as [|[|a]]; [| |lia]; (destruct b as [|[|b]]; [| |lia]); unfold splitting; lra.
  - unfold via_masses. cbn [rsum]. rewrite !mix45 by lia. cbn [Nat.eqb andb]. unfold cnorm2. cbn [re im rtc].
    pose proof sqrt2_sq. nra.
Qed.

Print Assumptions c87_full_average.
Print Assumptions c87_no_average.
Print Assumptions c87_total.
Print Assumptions c87_mass.
Print Assumptions c87_probabilities.
Print Assumptions c87_between.
Print Assumptions c87_time_average.
Print Assumptions c87_mass_basis_refuted.
Print Assumptions c87_partial_average_refuted.
