(** The evolution equation: what each term does to the flavour content, and
    the change between the bases of evolution. *)
From Coq Require Import Reals List Arith Bool Lia Lra Ring.
From Verif Require Import CMatrix FlavorModel FlavorProofs.
Import ListNotations.
Open Scope R_scope.

(** ** Sums of projectors *)
Lemma rest_sources_at m ext Pt A i a b :
  rest_sources m ext Pt A i a b = (A a b + csum m (fun l => rtc (ext (i + l)%nat) * Pt (i + l)%nat a b))%C.
Proof.
  revert A i. induction m as [|m IH]; intros A i; cbn [rest_sources]; [cbn; ring|].
  rewrite IH. unfold mplus, mscale.
  assert (E : csum (S m) (fun l => (rtc (ext (i + l)%nat) * Pt (i + l)%nat a b)%C) =
    (rtc (ext i) * Pt i a b + csum m (fun l => rtc (ext (S i + l)%nat) * Pt (S i + l)%nat a b))%C).
  { clear. induction m as [|m IH].
    - cbn. rewrite Nat.add_0_r. ring.
    - cbn [csum] in *. rewrite IH. replace (i + S m)%nat with (S i + m)%nat by lia. ring. }
  rewrite E. ring.
Qed.

(** what the interaction term adds to flavour [k] *)
Definition regained (inter sources : bool) (gain ext : nat -> R) (k : nat) : R :=
  (if inter && Nat.ltb k 3 then gain k else 0) + (if sources then ext k else 0).

Lemma csum_split3 m f : (3 <= m)%nat -> csum m f = (f 0%nat + f 1%nat + f 2%nat + csum (m - 3) (fun l => f (3 + l)%nat))%C.
Proof.
  intro L. destruct m as [|[|[|m]]]; try lia. replace (S (S (S m)) - 3)%nat with m by lia. clear L.
  induction m as [|m IH]; [cbn; ring|]. cbn [csum] in *. rewrite IH. cbn [Nat.add]. ring.
Qed.
Lemma csum_split1 m f : (1 <= m)%nat -> csum m f = (f 0%nat + csum (m - 1) (fun l => f (1 + l)%nat))%C.
Proof.
  intro L. destruct m as [|m]; try lia. replace (S m - 1)%nat with m by lia. clear L.
  induction m as [|m IH]; [cbn; ring|]. cbn [csum] in *. rewrite IH. cbn [Nat.add]. ring.
Qed.

Lemma interactions_sum n inter sources gain ext Pt : (3 <= n)%nat ->
  meq n (interactions_rho n inter sources gain ext Pt)
        (msum n (fun k => mscale (regained inter sources gain ext k) (Pt k))).
Proof.
  intros L a b _ _. rewrite msum_at. unfold interactions_rho, regained, mscale.
  destruct inter, sources; cbn [negb andb].
  - rewrite rest_sources_at, (csum_split3 n) by exact L. cbn [Nat.ltb Nat.leb Nat.add]. unfold mplus, mscale.
    f_equal. apply csum_ext. intros l _. rewrite Rplus_0_l. reflexivity.
  - rewrite (csum_split3 n) by exact L. cbn [Nat.ltb Nat.leb Nat.add]. unfold mplus, mscale.
    rewrite (csum_zero (n - 3)).
    + rewrite !Rplus_0_r. ring.
    + intros l _. rewrite Rplus_0_r, rtc_0. ring.
  - rewrite rest_sources_at, (csum_split1 n) by lia. unfold mscale. rewrite !Rplus_0_l. f_equal.
    apply csum_ext. intros l _. rewrite Rplus_0_l. reflexivity.
  - symmetry. apply csum_zero. intros k _. rewrite Rplus_0_r, rtc_0. ring.
Qed.

Definition lost (inter : bool) (invlen : nat -> R) (k : nat) : R :=
  if inter && Nat.ltb k 3 then invlen k else 0.

Lemma gamma_sum n inter invlen Pt : (3 <= n)%nat ->
  meq n (gamma_rho inter invlen Pt) (msum n (fun k => mscale (5 / 10 * lost inter invlen k) (Pt k))).
Proof.
  intros L a b _ _. rewrite msum_at. unfold gamma_rho, lost, mscale. destruct inter; cbn [andb].
  - rewrite (csum_split3 n) by exact L. cbn [Nat.ltb Nat.leb Nat.add]. unfold mplus, mscale.
    rewrite (csum_zero (n - 3)); [ring|]. intros l _. rewrite Rmult_0_r, rtc_0. ring.
  - symmetry. apply csum_zero. intros k _. rewrite Rmult_0_r, rtc_0. ring.
Qed.

Lemma expect_plus_r n A B D : expect n A (mplus B D) = expect n A B + expect n A D.
Proof. unfold expect. rewrite (trace_meq n _ _ (mmult_plus_r n B D A)), trace_plus. reflexivity. Qed.
Lemma expect_scale_r n x A B : expect n A (mscale x B) = x * expect n A B.
Proof. unfold expect. rewrite (trace_meq n _ _ (mmult_scale_r n x B A)), trace_scale. cbn. ring. Qed.

Lemma expect_frame_sum n V P f k : unitary n V -> frame n V P -> (k < n)%nat ->
  expect n (P k) (msum n (fun j => mscale (f j) (P j))) = f k.
Proof.
  intros U F Hk. rewrite (ini_content n V P V P f k U F U F Hk). rewrite <- (rsum_delta n f k Hk).
  apply rsum_ext. intros j Hj. rewrite col_dot by assumption. reflexivity.
Qed.

Lemma content_rate n V Pt H inter sources invlen gain ext rho k : (3 <= n)%nat -> unitary n V -> frame n V Pt ->
  (k < n)%nat ->
  expect n (Pt k) (rhs n H (gamma_rho inter invlen Pt) (interactions_rho n inter sources gain ext Pt) rho) =
  expect n (Pt k) (coherent n H rho) - lost inter invlen k * expect n (Pt k) rho + regained inter sources gain ext k.
Proof.
  intros L U F Hk. unfold rhs. rewrite !expect_plus_r, expect_scale_r.
  rewrite (anti_expect n V Pt _ rho (fun j => 5 / 10 * lost inter invlen j) k U F Hk (gamma_sum n inter invlen Pt L)).
  rewrite (expect_meq n (Pt k) (Pt k) _ _ (meq_refl n _) (interactions_sum n inter sources gain ext Pt L)).
  rewrite (expect_frame_sum n V Pt _ k U F Hk). field.
Qed.

(** ** Change of basis *)
Definition diag_real (n : nat) (H : mat) : Prop := forall a b, (a < n)%nat -> (b < n)%nat ->
  H a b = if Nat.eqb a b then rtc (re (H a a)) else c0.

Lemma h0_diag_real n osc ediff E : diag_real n (h0 n osc ediff E).
Proof.
  intros a b _ _. unfold h0. destruct osc; [|unfold mzero; destruct (Nat.eqb a b); reflexivity].
  unfold mscale, dm2. rewrite !msum_at. destruct (Nat.eqb a b) eqn:Q.
  - apply Nat.eqb_eq in Q as <-.
    assert (I : csum (n - 1) (fun k => mscale (ediff (S k)) (b0_proj (S k)) a a) =
                rtc (rsum (n - 1) (fun k => ediff (S k) * (if Nat.eqb a (S k) then 1 else 0)))).
    { rewrite rtc_rsum. apply csum_ext. intros k _. unfold mscale, b0_proj, ket_proj, delta.
      destruct (Nat.eqb a (S k)); apply Ceq; cbn; ring. }
    rewrite I. apply Ceq; cbn; ring.
  - rewrite csum_zero; [ring|]. intros k _. unfold mscale, b0_proj, ket_proj, delta.
    apply Nat.eqb_neq in Q. destruct (Nat.eqb a (S k)) eqn:A, (Nat.eqb b (S k)) eqn:B; try ring.
    apply Nat.eqb_eq in A, B. congruence.
Qed.

Lemma evolve_mult n H t A B : meq n (evolve H t (mmult n A B)) (mmult n (evolve H t A) (evolve H t B)).
Proof.
  intros a b _ _. unfold evolve, mmult. rewrite <- csum_mult_l. apply csum_ext. intros c _.
  replace ((re (H a a) - re (H b b)) * t) with ((re (H a a) - re (H c c)) * t + (re (H c c) - re (H b b)) * t) by ring.
  rewrite <- cexp_plus. ring.
Qed.
Lemma evolve_plus n H t A B : meq n (evolve H t (mplus A B)) (mplus (evolve H t A) (evolve H t B)).
Proof. intros a b _ _. unfold evolve, mplus. ring. Qed.
Lemma evolve_scale n H t x A : meq n (evolve H t (mscale x A)) (mscale x (evolve H t A)).
Proof. intros a b _ _. unfold evolve, mscale. ring. Qed.
Lemma evolve_zero n H t : meq n (evolve H t mzero) mzero.
Proof. intros a b _ _. unfold evolve, mzero. ring. Qed.

Lemma evolve_gamma n H t inter invlen P :
  meq n (evolve H t (gamma_rho inter invlen P)) (gamma_rho inter invlen (fun k => evolve H t (P k))).
Proof.
  unfold gamma_rho. destruct inter; [|apply evolve_zero].
  intros a b _ _. unfold evolve, mplus, mscale. ring.
Qed.
Lemma evolve_interactions n H t inter sources gain ext P :
  meq n (evolve H t (interactions_rho n inter sources gain ext P))
        (interactions_rho n inter sources gain ext (fun k => evolve H t (P k))).
Proof.
  assert (RS : forall m A i, meq n (evolve H t (rest_sources m ext P A i))
                 (rest_sources m ext (fun k => evolve H t (P k)) (evolve H t A) i)).
  { intros m A i a b _ _. unfold evolve at 1. rewrite !rest_sources_at. unfold evolve.
    set (ph := cexp _).
    assert (E : csum m (fun l => (rtc (ext (i + l)%nat) * (ph * P (i + l)%nat a b))%C) =
      (ph * csum m (fun l => (rtc (ext (i + l)%nat) * P (i + l)%nat a b)%C))%C).
    { rewrite <- csum_mult_l. apply csum_ext. intros. ring. }
    rewrite E. ring. }
  assert (RM : forall m A B i, meq n A B -> meq n (rest_sources m ext (fun k => evolve H t (P k)) A i)
                 (rest_sources m ext (fun k => evolve H t (P k)) B i)).
  { intros m A B i E a b Ha Hb. rewrite !rest_sources_at, E by assumption. reflexivity. }
  unfold interactions_rho. destruct inter, sources; cbn [negb andb].
  - eapply meq_trans; [apply RS|]. apply RM. intros a b _ _. unfold evolve, mplus, mscale. ring.
  - intros a b _ _. unfold evolve, mplus, mscale. ring.
  - eapply meq_trans; [apply RS|]. apply RM. intros a b _ _. unfold evolve, mscale. ring.
  - apply evolve_zero.
Qed.

(** derivative of a complex function of a real variable *)
Definition cderiv (f : R -> C) (t : R) (d : C) : Prop :=
  derivable_pt_lim (fun s => re (f s)) t (re d) /\ derivable_pt_lim (fun s => im (f s)) t (im d).

Lemma cderiv_mult f g t df dg : cderiv f t df -> cderiv g t dg ->
  cderiv (fun s => cmult (f s) (g s)) t (cplus (cmult df (g t)) (cmult (f t) dg)).
Proof.
  intros (F1 & F2) (G1 & G2). split.
  - cbn [re cmult cplus].
    replace (re df * re (g t) - im df * im (g t) + (re (f t) * re dg - im (f t) * im dg)) with
      ((re df * re (g t) + re (f t) * re dg) - (im df * im (g t) + im (f t) * im dg)) by ring.
    apply (derivable_pt_lim_minus (fun s => re (f s) * re (g s)) (fun s => im (f s) * im (g s)));
    apply (derivable_pt_lim_mult (fun s => _ (f s)) (fun s => _ (g s))); assumption.
  - cbn [im cmult cplus].
    replace (re df * im (g t) + im df * re (g t) + (re (f t) * im dg + im (f t) * re dg)) with
      ((re df * im (g t) + re (f t) * im dg) + (im df * re (g t) + im (f t) * re dg)) by ring.
    apply (derivable_pt_lim_plus (fun s => re (f s) * im (g s)) (fun s => im (f s) * re (g s)));
    apply (derivable_pt_lim_mult (fun s => _ (f s)) (fun s => _ (g s))); assumption.
Qed.

Lemma lin_deriv w t0 t : derivable_pt_lim (fun s => w * (s - t0)) t w.
Proof.
  assert (D : derivable_pt_lim (fun s => w * (s - t0)) t (w * (1 - 0))).
  { apply (derivable_pt_lim_scal (fun s => s - t0)).
    apply (derivable_pt_lim_minus id (fun _ => t0)); [apply derivable_pt_lim_id|apply derivable_pt_lim_const]. }
  replace (w * (1 - 0)) with w in D by ring. exact D.
Qed.

Lemma cderiv_phase w t0 t : cderiv (fun s => cexp (w * (s - t0))) t (cmult (mkC 0 w) (cexp (w * (t - t0)))).
Proof.
  split; cbn.
  - replace (0 * cos (w * (t - t0)) - w * sin (w * (t - t0))) with (- sin (w * (t - t0)) * w) by ring.
    apply (derivable_pt_lim_comp (fun s => w * (s - t0)) cos); [apply lin_deriv|apply derivable_pt_lim_cos].
  - replace (0 * sin (w * (t - t0)) + w * cos (w * (t - t0))) with (cos (w * (t - t0)) * w) by ring.
    apply (derivable_pt_lim_comp (fun s => w * (s - t0)) sin); [apply lin_deriv|apply derivable_pt_lim_sin].
Qed.

Lemma mderiv_meq n rho t D D' : meq n D D' -> mderiv n rho t D -> mderiv n rho t D'.
Proof. intros E H i j Hi Hj. rewrite <- E by assumption. apply H; assumption. Qed.

Lemma diag_mult_l n H A a b : diag_real n H -> (a < n)%nat -> (b < n)%nat ->
  mmult n H A a b = (rtc (re (H a a)) * A a b)%C.
Proof.
  intros D Ha Hb. unfold mmult. rewrite (csum_single n a); [|exact Ha|].
  - rewrite (D a a Ha Ha) at 1. rewrite Nat.eqb_refl. reflexivity.
  - intros c Hc N. rewrite (D a c Ha Hc), (proj2 (Nat.eqb_neq a c)) by congruence. ring.
Qed.
Lemma diag_mult_r n H A a b : diag_real n H -> (a < n)%nat -> (b < n)%nat ->
  mmult n A H a b = (A a b * rtc (re (H b b)))%C.
Proof.
  intros D Ha Hb. unfold mmult. rewrite (csum_single n b); [|exact Hb|].
  - rewrite (D b b Hb Hb) at 1. rewrite Nat.eqb_refl. reflexivity.
  - intros c Hc N. rewrite (D c b Hc Hb), (proj2 (Nat.eqb_neq c b)) by congruence. ring.
Qed.

Lemma change_of_basis n H Q G I (sigma : R -> mat) t0 t : diag_real n H ->
  mderiv n sigma t (rhs n (mplus Q H) G I (sigma t)) ->
  mderiv n (fun s => evolve H (s - t0) (sigma s)) t
    (rhs n (evolve H (t - t0) Q) (evolve H (t - t0) G) (evolve H (t - t0) I) (evolve H (t - t0) (sigma t))).
Proof.
  intros D S a b Ha Hb.
  pose proof (cderiv_mult _ _ t _ _ (cderiv_phase (re (H a a) - re (H b b)) t0 t) (S a b Ha Hb)) as M.
  assert (E : (mkC 0 (re (H a a) - re (H b b)) * cexp ((re (H a a) - re (H b b)) * (t - t0)) * sigma t a b +
               cexp ((re (H a a) - re (H b b)) * (t - t0)) * rhs n (mplus Q H) G I (sigma t) a b)%C =
     rhs n (evolve H (t - t0) Q) (evolve H (t - t0) G) (evolve H (t - t0) I) (evolve H (t - t0) (sigma t)) a b).
  { unfold rhs, mplus, mscale, anti, coherent.
    rewrite <- !(evolve_mult n H (t - t0) _ _ a b Ha Hb).
    unfold mplus at 1 2. rewrite <- !(evolve_mult n H (t - t0) _ _ a b Ha Hb).
    change (fun i j : nat => (Q i j + H i j)%C) with (mplus Q H).
    rewrite (mmult_plus_l n Q H (sigma t) a b Ha Hb), (mmult_plus_r n Q H (sigma t) a b Ha Hb).
    unfold mplus. rewrite (diag_mult_l n H (sigma t) a b D Ha Hb), (diag_mult_r n H (sigma t) a b D Ha Hb).
    unfold evolve. unfold cminus.
    set (ph := cexp _). set (la := re (H a a)). set (lb := re (H b b)).
    replace (mkC 0 (la - lb)) with (mkC 0 1 * (rtc la - rtc lb))%C by (apply Ceq; cbn; ring).
    replace (mkC 0 (-1)) with (- mkC 0 1)%C by (apply Ceq; cbn; ring). unfold cminus. ring. }
  unfold cderiv in M. cbv beta in M.
  change (re (evolve H (t - t0) (sigma t) a b)) with (re (evolve H (t - t0) (sigma t) a b)).
  rewrite <- E. exact M.
Qed.

Lemma evolve_shift n H t A B :
  trace n (mmult n (evolve H t A) (evolve H t B)) = trace n (mmult n A B).
Proof.
  rewrite <- (trace_meq n _ _ (evolve_mult n H t A B)). unfold trace. apply csum_ext. intros a _.
  unfold evolve. rewrite Rminus_diag_eq, Rmult_0_l, cexp_0 by reflexivity. ring.
Qed.

(** ** Conjugation with a propagator *)
Lemma mderiv_mult n (A B : R -> mat) t dA dB : mderiv n A t dA -> mderiv n B t dB ->
  mderiv n (fun s => mmult n (A s) (B s)) t (mplus (mmult n dA (B t)) (mmult n (A t) dB)).
Proof.
  intros HA HB i j Hi Hj.
  assert (G : forall m, (m <= n)%nat ->
    cderiv (fun s => csum m (fun k => cmult (A s i k) (B s k j))) t
      (cplus (csum m (fun k => cmult (dA i k) (B t k j))) (csum m (fun k => cmult (A t i k) (dB k j))))).
  { induction m as [|m IH]; intro L.
    - split; cbn; rewrite Rplus_0_r; apply derivable_pt_lim_const.
    - cbn [csum]. pose proof (cderiv_mult (fun s => A s i m) (fun s => B s m j) t (dA i m) (dB m j)
        (HA i m Hi L) (HB m j L Hj)) as (M1 & M2).
      destruct (IH ltac:(lia)) as (I1 & I2).
      replace (csum m (fun k => (dA i k * B t k j)%C) + dA i m * B t m j +
               (csum m (fun k => (A t i k * dB k j)%C) + A t i m * dB m j))%C with
        ((csum m (fun k => (dA i k * B t k j)%C) + csum m (fun k => (A t i k * dB k j)%C)) +
         (dA i m * B t m j + A t i m * dB m j))%C by ring.
      split; cbn [re im cplus].
      + apply (derivable_pt_lim_plus (fun s => re (csum m (fun k => cmult (A s i k) (B s k j))))
                 (fun s => re (cmult (A s i m) (B s m j)))); assumption.
      + apply (derivable_pt_lim_plus (fun s => im (csum m (fun k => cmult (A s i k) (B s k j))))
                 (fun s => im (cmult (A s i m) (B s m j)))); assumption. }
  exact (G n (le_n n)).
Qed.

Lemma mderiv_dagger n (A : R -> mat) t dA : mderiv n A t dA -> mderiv n (fun s => dagger (A s)) t (dagger dA).
Proof.
  intros H i j Hi Hj. destruct (H j i Hj Hi) as (D1 & D2). unfold dagger, cconj. cbn [re im]. split; [exact D1|].
  apply (derivable_pt_lim_opp (fun s => im (A s j i))). exact D2.
Qed.

Lemma mderiv_const n A t : mderiv n (fun _ => A) t mzero.
Proof. intros i j _ _. split; apply derivable_pt_lim_const. Qed.

(** -i H W *)
Definition generated (n : nat) (H W : mat) : mat := fun i j => cmult (mkC 0 (-1)) (mmult n H W i j).

Lemma propagator_solves n H (W : R -> mat) rho0 t : hermitian n H ->
  mderiv n W t (generated n H (W t)) ->
  mderiv n (fun s => conjugated n (W s) rho0) t (rhs n H mzero mzero (conjugated n (W t) rho0)).
Proof.
  intros HH D.
  pose proof (mderiv_mult n W (fun _ => rho0) t _ _ D (mderiv_const n rho0 t)) as D1.
  pose proof (mderiv_mult n _ _ t _ _ D1 (mderiv_dagger n W t _ D)) as D2.
  eapply mderiv_meq; [|exact D2]. clear D D1 D2.
  set (S := conjugated n (W t) rho0).
  assert (T1 : meq n (mmult n (mplus (mmult n (generated n H (W t)) rho0) (mmult n (W t) mzero)) (dagger (W t)))
                 (fun i j => cmult (mkC 0 (-1)) (mmult n H S i j))).
  { intros i j Hi Hj.
    assert (In : meq n (mplus (mmult n (generated n H (W t)) rho0) (mmult n (W t) mzero))
                   (fun i j => cmult (mkC 0 (-1)) (mmult n H (mmult n (W t) rho0) i j))).
    { intros a b Ha Hb. unfold mplus.
      rewrite <- (mmult_assoc n H (W t) rho0 a b Ha Hb). unfold mmult at 1 2 3.
      rewrite (csum_zero n (fun k => (W t a k * mzero k b)%C)).
      2:{ intros k _. unfold mzero. ring. }
      rewrite <- csum_mult_l.
      rewrite <- (csum_ext n (fun k => (mkC 0 (-1) * (mmult n H (W t) a k * rho0 k b))%C)); [ring|].
      intros k _. unfold generated. ring. }
    rewrite (mmult_meq n _ _ _ _ In (meq_refl n (dagger (W t))) i j Hi Hj).
    unfold S, conjugated. rewrite <- (mmult_assoc n H (mmult n (W t) rho0) (dagger (W t)) i j Hi Hj).
    unfold mmult at 1 4. rewrite <- csum_mult_l. apply csum_ext. intros k _. ring. }
  assert (T2 : meq n (mmult n (mmult n (W t) rho0) (dagger (generated n H (W t))))
                 (fun i j => cmult (mkC 0 1) (mmult n S H i j))).
  { intros i j Hi Hj.
    assert (In : meq n (dagger (generated n H (W t))) (fun i j => cmult (mkC 0 1) (mmult n (dagger (W t)) H i j))).
    { intros a b Ha Hb. unfold dagger at 1, generated. rewrite conj_mult.
      change (cconj (mmult n H (W t) b a)) with (dagger (mmult n H (W t)) a b).
      rewrite (dagger_mult n H (W t) a b Ha Hb). rewrite (mmult_meq n _ _ _ _ (meq_refl n _) HH a b Ha Hb).
      f_equal. apply Ceq; cbn; ring. }
    rewrite (mmult_meq n _ _ _ _ (meq_refl n _) In i j Hi Hj).
    unfold S, conjugated. rewrite (mmult_assoc n (mmult n (W t) rho0) (dagger (W t)) H i j Hi Hj).
    unfold mmult at 1 4. rewrite <- csum_mult_l. apply csum_ext. intros k _. ring. }
  intros i j Hi Hj. unfold mplus at 1. rewrite (T1 i j Hi Hj), (T2 i j Hi Hj).
  unfold rhs, mplus, mscale, anti, coherent, mplus.
  assert (Z1 : mmult n mzero S i j = c0) by (apply csum_zero; intros k _; unfold mzero; ring).
  assert (Z2 : mmult n S mzero i j = c0) by (apply csum_zero; intros k _; unfold mzero; ring).
  rewrite Z1, Z2. unfold mzero. apply Ceq; cbn; ring.
Qed.

Lemma outer_hermitian n x : hermitian n (outer x).
Proof. intros a b _ _. unfold dagger, outer. rewrite conj_mult, conj_conj. ring. Qed.

Lemma hi_hermitian n V P b H cc nc : (3 <= n)%nat -> frame n V P -> diag_real n H -> hermitian n (hi b H cc nc P).
Proof.
  intros L F D i j Hi Hj.
  assert (Pk : forall k, (k < n)%nat -> cconj (P k j i) = P k i j).
  { intros k Hk. rewrite (F k Hk j i Hj Hi), (F k Hk i j Hi Hj). exact (outer_hermitian n _ i j Hi Hj). }
  assert (Hd : cconj (H j i) = H i j).
  { rewrite (D j i Hj Hi), (D i j Hi Hj), Nat.eqb_sym. destruct (Nat.eqb i j) eqn:E; [|apply conj_0].
    apply Nat.eqb_eq in E as ->. apply conj_rtc. }
  unfold dagger, hi. destruct b; unfold mplus, mscale; rewrite ?conj_plus, ?conj_mult, ?conj_rtc, ?Hd, !Pk by lia; reflexivity.
Qed.
