(** The equation keeps matrices without negative part so. *)
From Coq Require Import Reals List Arith Bool Lia Lra Psatz.
From Verif Require Import Err CMatrix FlavorModel FlavorProofs AvgProofs SuperModel SuperProofs.
Local Open Scope R_scope.

(** ** Induction along an interval *)
Lemma real_ind (P : R -> Prop) t0 t1 : (forall t, ~ ~ P t -> P t) -> t0 <= t1 -> P t0 ->
  (forall t, t0 <= t < t1 -> P t -> exists d, 0 < d /\ forall h, 0 < h < d -> P (t + h)) ->
  (forall t, t0 < t <= t1 -> (forall s, t0 <= s < t -> P s) -> P t) ->
  forall t, t0 <= t <= t1 -> P t.
Proof.
  intros St L P0 Open Closed.
  set (E := fun x => t0 <= x <= t1 /\ forall s, t0 <= s <= x -> P s).
  assert (E0 : E t0) by (split; [lra|intros s S; replace s with t0 by lra; exact P0]).
  destruct (completeness E) as [m [Ub Lst]].
  - exists t1. intros x [X _]. lra.
  - exists t0. exact E0.
  - assert (M0 : t0 <= m) by (apply Ub, E0). assert (M1 : m <= t1) by (apply Lst; intros x [X _]; lra).
    assert (Before : forall s, t0 <= s < m -> P s).
    { intros s S. apply St. intro N. assert (m <= s); [|lra]. apply Lst. intros x [X PX].
        destruct (Rle_lt_dec x s); [assumption|]. exfalso. apply N. apply PX. lra. }
    assert (Pm : P m).
    { destruct (Req_dec m t0) as [->|N]; [exact P0|]. apply Closed; [lra|exact Before]. }
    assert (All : forall s, t0 <= s <= m -> P s).
    { intros s S. destruct (Req_dec s m) as [->|N]; [exact Pm|]. apply Before. lra. }
    destruct (Rle_lt_dec t1 m) as [Y|N]; [intros t T; apply All; lra|]. exfalso.
    destruct (Open m ltac:(lra) Pm) as (d & Dp & Hd).
    set (x := m + Rmin (d / 2) (t1 - m)).
    pose proof (Rmin_l (d / 2) (t1 - m)). pose proof (Rmin_r (d / 2) (t1 - m)).
    assert (0 < Rmin (d / 2) (t1 - m)) by (apply Rmin_glb_lt; lra).
    assert (x <= m); [|unfold x in *; lra]. apply Ub. split; [unfold x; lra|]. intros s S.
    destruct (Rle_lt_dec s m); [apply All; lra|]. replace s with (m + (s - m)) by lra. apply Hd. unfold x in S. lra.
Qed.

(** ** Quadratic forms *)
Definition quad (n : nat) (D A : mat) : R := re (trace n (mmult n (dagger D) (mmult n A D))).

Lemma quad_sum n D A : quad n D A = CMatrix.rsum n (fun k => CMatrix.rsum n (fun i => CMatrix.rsum n (fun j =>
  re (cmult (cconj (D i k)) (cmult (A i j) (D j k)))))).
Proof.
  unfold quad, trace. rewrite csum_re. apply CMatrix.rsum_ext. intros k K. unfold mmult at 1. rewrite csum_re. apply CMatrix.rsum_ext. intros i I.
  unfold mmult, dagger. rewrite <- csum_mult_l, csum_re. reflexivity.
Qed.
Lemma quad_meq n D A B : meq n A B -> quad n D A = quad n D B.
Proof. intro E. unfold quad. f_equal. apply trace_meq, mmult_meq; [apply meq_refl|]. apply mmult_meq; [exact E|apply meq_refl]. Qed.
Lemma quad_plus n D A B : quad n D (mplus A B) = quad n D A + quad n D B.
Proof.
  unfold quad. rewrite (trace_meq n _ (mplus (mmult n (dagger D) (mmult n A D)) (mmult n (dagger D) (mmult n B D)))).
  - rewrite trace_plus. reflexivity.
  - eapply meq_trans; [apply mmult_meq; [apply meq_refl|apply mmult_plus_l]|]. apply mmult_plus_r.
Qed.
Lemma quad_scale n D x A : quad n D (mscale x A) = x * quad n D A.
Proof.
  unfold quad. rewrite (trace_meq n _ (mscale x (mmult n (dagger D) (mmult n A D)))).
  - rewrite trace_scale. cbn. ring.
  - eapply meq_trans; [apply mmult_meq; [apply meq_refl|apply mmult_scale_l]|]. apply mmult_scale_r.
Qed.
Lemma quad_id n D : quad n D mid = nrm n D.
Proof.
  unfold quad. rewrite (trace_meq n _ (mmult n (dagger D) D)) by (apply mmult_meq; [apply meq_refl|apply mmult_id_l]).
  unfold trace, nrm. rewrite csum_re, (CMatrix.rsum_swap n n (fun i j => cnorm2 (D i j))). apply CMatrix.rsum_ext. intros i I. unfold mmult. rewrite csum_re.
  apply CMatrix.rsum_ext. intros k K. unfold dagger, cnorm2. cbn. ring.
Qed.
Lemma rsum_mean n f : CMatrix.rsum n (fun i => CMatrix.rsum n (fun j => f i + f j)) = 2 * INR n * CMatrix.rsum n f.
Proof.
  assert (A : forall m, CMatrix.rsum m (fun i => CMatrix.rsum n (fun j => f i + f j)) = INR n * CMatrix.rsum m f + INR m * CMatrix.rsum n f).
  { induction m as [|m IH]; [cbn; ring|]. rewrite S_INR. cbn [CMatrix.rsum]. rewrite IH, CMatrix.rsum_plus.
    assert (K : forall k, CMatrix.rsum k (fun _ => f m) = INR k * f m) by (induction k as [|k IHk]; [cbn; ring|rewrite S_INR; cbn [CMatrix.rsum]; rewrite IHk; ring]).
    rewrite K. ring. }
  rewrite A. ring.
Qed.
Lemma quad_bound n D A b : 0 <= b -> (forall i j, (i < n)%nat -> (j < n)%nat -> Rabs (re (A i j)) <= b /\ Rabs (im (A i j)) <= b) ->
  Rabs (quad n D A) <= 2 * INR n * b * nrm n D.
Proof.
  intros B0 B. rewrite quad_sum.
  eapply Rle_trans; [apply rsum_abs|]. unfold nrm. rewrite (CMatrix.rsum_swap n n (fun i j => cnorm2 (D i j))). rewrite <- CMatrix.rsum_scal. apply CMatrix.rsum_le. intros k K.
  eapply Rle_trans; [apply rsum_abs|].
  apply Rle_trans with (CMatrix.rsum n (fun i => CMatrix.rsum n (fun j => b * cnorm2 (D i k) + b * cnorm2 (D j k)))).
  - apply CMatrix.rsum_le. intros i I. eapply Rle_trans; [apply rsum_abs|]. apply CMatrix.rsum_le. intros j J. destruct (B i j I J) as [B1 B2].
    destruct (A i j) as [x y], (D i k) as [p q], (D j k) as [u v]. cbn in *. unfold cnorm2. cbn.
    replace (p * (x * u - y * v) - - q * (x * v + y * u)) with (x * (p * u + q * v) + y * (q * u - p * v)) by ring.
    eapply Rle_trans; [apply Rabs_triang|]. rewrite !Rabs_mult.
    assert (C1 : Rabs (p * u + q * v) <= (p * p + q * q + (u * u + v * v)) / 2)
      by (apply Rabs_le; pose proof (Rle_0_sqr (p - u)); pose proof (Rle_0_sqr (q - v)); pose proof (Rle_0_sqr (p + u)); pose proof (Rle_0_sqr (q + v)); unfold Rsqr in *; lra).
    assert (C2 : Rabs (q * u - p * v) <= (p * p + q * q + (u * u + v * v)) / 2)
      by (apply Rabs_le; pose proof (Rle_0_sqr (q - u)); pose proof (Rle_0_sqr (p - v)); pose proof (Rle_0_sqr (q + u)); pose proof (Rle_0_sqr (p + v)); unfold Rsqr in *; lra).
    pose proof (Rabs_pos (p * u + q * v)). pose proof (Rabs_pos (q * u - p * v)).
    assert (Rabs x * Rabs (p * u + q * v) <= b * ((p * p + q * q + (u * u + v * v)) / 2)) by (apply Rmult_le_compat; try assumption; apply Rabs_pos).
    assert (Rabs y * Rabs (q * u - p * v) <= b * ((p * p + q * q + (u * u + v * v)) / 2)) by (apply Rmult_le_compat; try assumption; apply Rabs_pos).
    lra.
  - rewrite (rsum_mean n (fun i => b * cnorm2 (D i k))), CMatrix.rsum_scal. apply Req_le. ring.
Qed.
(** Some bound for all entries. *)
Lemma entries_bounded n (A : mat) : exists b, 0 <= b /\ forall i j, (i < n)%nat -> (j < n)%nat -> Rabs (re (A i j)) <= b /\ Rabs (im (A i j)) <= b.
Proof.
  exists (CMatrix.rsum n (fun i => CMatrix.rsum n (fun j => Rabs (re (A i j)) + Rabs (im (A i j))))).
  assert (P : forall i j, 0 <= Rabs (re (A i j)) + Rabs (im (A i j))) by (intros; pose proof (Rabs_pos (re (A i j))); pose proof (Rabs_pos (im (A i j))); lra).
  split; [apply CMatrix.rsum_pos; intros; apply CMatrix.rsum_pos; intros; apply P|]. intros i j I J.
  pose proof (CMatrix.rsum_term n (fun i => CMatrix.rsum n (fun j => Rabs (re (A i j)) + Rabs (im (A i j)))) i I ltac:(intros; apply CMatrix.rsum_pos; intros; apply P)) as T1.
  pose proof (CMatrix.rsum_term n (fun j => Rabs (re (A i j)) + Rabs (im (A i j))) j J ltac:(intros; apply P)) as T2. cbv beta in T1, T2.
  pose proof (Rabs_pos (re (A i j))). pose proof (Rabs_pos (im (A i j))). lra.
Qed.
(** Finitely many limits at once. *)
Lemma common_delta (m : nat) (Q : nat -> R -> Prop) : (forall i, (i < m)%nat -> exists d, 0 < d /\ forall h, 0 < Rabs h < d -> Q i h) ->
  exists d, 0 < d /\ forall h i, (i < m)%nat -> 0 < Rabs h < d -> Q i h.
Proof.
  induction m as [|m IH]; intro H.
  - exists 1. split; [lra|]. intros; lia.
  - destruct IH as (d & Dp & Hd); [intros; apply H; lia|]. destruct (H m ltac:(lia)) as (d' & Dp' & Hd').
    exists (Rmin d d'). split; [apply Rmin_glb_lt; assumption|]. intros h i I Hh.
    pose proof (Rmin_l d d'). pose proof (Rmin_r d d').
    destruct (Nat.eq_dec i m) as [->|N]; [apply Hd'; lra|apply Hd; [lia|lra]].
Qed.
Lemma mderiv_uniform n (A : R -> mat) t A' eps : 0 < eps -> mderiv n A t A' -> exists d, 0 < d /\ forall h, 0 < Rabs h < d ->
  forall i j, (i < n)%nat -> (j < n)%nat ->
    Rabs (re (A (t + h) i j) - re (A t i j) - h * re (A' i j)) <= eps * Rabs h /\ Rabs (im (A (t + h) i j) - im (A t i j) - h * im (A' i j)) <= eps * Rabs h.
Proof.
  intros Ep M.
  assert (One : forall f x l, derivable_pt_lim f x l -> exists d, 0 < d /\ forall h, 0 < Rabs h < d -> Rabs (f (x + h) - f x - h * l) <= eps * Rabs h).
  { intros f x l H. destruct (H eps Ep) as [d Hd]. exists d. split; [apply cond_pos|]. intros h [H0 H1].
    assert (N : h <> 0) by (intros ->; rewrite Rabs_R0 in H0; lra). specialize (Hd h N H1).
    replace (f (x + h) - f x - h * l) with (((f (x + h) - f x) / h - l) * h) by (field; exact N).
    rewrite Rabs_mult. apply Rmult_le_compat_r; [apply Rabs_pos|lra]. }
  destruct (common_delta n (fun i h => forall j, (j < n)%nat ->
    Rabs (re (A (t + h) i j) - re (A t i j) - h * re (A' i j)) <= eps * Rabs h /\ Rabs (im (A (t + h) i j) - im (A t i j) - h * im (A' i j)) <= eps * Rabs h)) as (d & Dp & Hd).
  - intros i I. destruct (common_delta n (fun j h =>
      Rabs (re (A (t + h) i j) - re (A t i j) - h * re (A' i j)) <= eps * Rabs h /\ Rabs (im (A (t + h) i j) - im (A t i j) - h * im (A' i j)) <= eps * Rabs h)) as (d & Dp & Hd).
    + intros j J. destruct (M i j I J) as [M1 M2]. destruct (One _ _ _ M1) as (d1 & P1 & H1). destruct (One _ _ _ M2) as (d2 & P2 & H2).
      exists (Rmin d1 d2). split; [apply Rmin_glb_lt; assumption|]. intros h Hh. pose proof (Rmin_l d1 d2). pose proof (Rmin_r d1 d2).
      split; [apply H1|apply H2]; lra.
    + exists d. split; [exact Dp|]. intros h Hh j J. apply Hd; assumption.
  - exists d. split; [exact Dp|]. intros h Hh i j I J. apply Hd; assumption.
Qed.
Lemma quad_step n (A : R -> mat) t A' eps : 0 < eps -> mderiv n A t A' -> exists d, 0 < d /\ forall h D, 0 < Rabs h < d ->
  Rabs (quad n D (A (t + h)) - quad n D (A t) - h * quad n D A') <= eps * Rabs h * nrm n D.
Proof.
  intros Ep M. assert (N0 : 0 <= INR n) by apply pos_INR.
  destruct (mderiv_uniform n A t A' (eps / (2 * INR n + 1))) as (d & Dp & Hd); [apply Rdiv_lt_0_compat; lra|exact M|].
  exists d. split; [exact Dp|]. intros h D Hh.
  replace (quad n D (A (t + h)) - quad n D (A t) - h * quad n D A') with (quad n D (mplus (A (t + h)) (mplus (mscale (-1) (A t)) (mscale (- h) A')))).
  2:{ rewrite !quad_plus, !quad_scale. ring. }
  assert (H0 : 0 <= Rabs h) by apply Rabs_pos. pose proof (nrm_pos n D) as ND.
  eapply Rle_trans; [apply (quad_bound n D _ (eps / (2 * INR n + 1) * Rabs h))|].
  - apply Rmult_le_pos; [left; apply Rdiv_lt_0_compat; lra|exact H0].
  - intros i j I J. destruct (Hd h Hh i j I J) as [B1 B2]. unfold mplus, mscale. cbn. split.
    + match goal with |- Rabs ?x <= _ => replace x with (re (A (t + h) i j) - re (A t i j) - h * re (A' i j)) by ring end. exact B1.
    + match goal with |- Rabs ?x <= _ => replace x with (im (A (t + h) i j) - im (A t i j) - h * im (A' i j)) by ring end. exact B2.
  - replace (2 * INR n * (eps / (2 * INR n + 1) * Rabs h) * nrm n D) with ((2 * INR n / (2 * INR n + 1)) * (eps * Rabs h * nrm n D)) by (field; lra).
    assert (2 * INR n / (2 * INR n + 1) <= 1) by (apply Rmult_le_reg_r with (2 * INR n + 1); [lra|]; unfold Rdiv; rewrite Rmult_assoc, Rinv_l by lra; lra).
    assert (0 <= eps * Rabs h * nrm n D) by (apply Rmult_le_pos; [apply Rmult_le_pos; lra|exact ND]). nra.
Qed.

(** ** One step of the equation *)
Definition lgen (H G : mat) : mat := fun i j => cplus (cmult (mkC 0 (-1)) (H i j)) (copp (G i j)).
Lemma rhs_lgen n H G I A : hermitian n H -> hermitian n G ->
  meq n (rhs n H G I A) (mplus (mplus (mmult n (lgen H G) A) (mmult n A (dagger (lgen H G)))) I).
Proof.
  intros Hh Hg i j Hi Hj. unfold rhs, coherent, anti, mplus, mscale. f_equal.
  assert (E1 : mmult n (lgen H G) A i j = cplus (cmult (mkC 0 (-1)) (mmult n H A i j)) (copp (mmult n G A i j))).
  { unfold mmult, lgen. replace (copp (csum n (fun k => cmult (G i k) (A k j)))) with (cmult (mkC (-1) 0) (csum n (fun k => cmult (G i k) (A k j)))) by (apply Ceq; cbn; ring).
    rewrite <- !csum_mult_l, <- csum_plus. apply csum_ext. intros k K. apply Ceq; cbn; ring. }
  assert (E2 : mmult n A (dagger (lgen H G)) i j = cplus (cmult (mkC 0 1) (mmult n A H i j)) (copp (mmult n A G i j))).
  { unfold mmult. replace (copp (csum n (fun k => cmult (A i k) (G k j)))) with (cmult (mkC (-1) 0) (csum n (fun k => cmult (A i k) (G k j)))) by (apply Ceq; cbn; ring).
    rewrite <- !csum_mult_l, <- csum_plus. apply csum_ext. intros k K. rewrite <- (Hh k j K Hj), <- (Hg k j K Hj). unfold dagger, lgen. apply Ceq; cbn; ring. }
  rewrite E1, E2. apply Ceq; cbn; ring.
Qed.
Lemma quad_shift n D A L h : quad n (mplus D (mscale h (mmult n (dagger L) D))) A =
  quad n D A + h * quad n D (mplus (mmult n L A) (mmult n A (dagger L))) + h * h * quad n (mmult n (dagger L) D) A.
Proof.
  set (X := mmult n (dagger L) D).
  assert (T : quad n D (mmult n L A) = re (trace n (mmult n (dagger X) (mmult n A D)))).
  { unfold quad. f_equal. apply trace_meq. eapply meq_trans; [|apply mmult_meq; [apply meq_sym, dagger_mult|apply meq_refl]].
    eapply meq_trans; [|apply meq_sym, mmult_assoc]. apply mmult_meq; [apply meq_refl|].
    eapply meq_trans; [apply mmult_assoc|]. apply mmult_meq; [|apply meq_refl]. apply meq_sym, dagger_dagger. }
  assert (T2 : quad n D (mmult n A (dagger L)) = re (trace n (mmult n (dagger D) (mmult n A X)))).
  { unfold quad. f_equal. apply trace_meq. apply mmult_meq; [apply meq_refl|]. apply mmult_assoc. }
  rewrite quad_plus, T, T2. unfold quad.
  rewrite (trace_meq n (mmult n (dagger (mplus D (mscale h X))) (mmult n A (mplus D (mscale h X))))
    (mplus (mplus (mmult n (dagger D) (mmult n A D)) (mscale h (mmult n (dagger D) (mmult n A X))))
           (mplus (mscale h (mmult n (dagger X) (mmult n A D))) (mscale (h * h) (mmult n (dagger X) (mmult n A X)))))).
  - rewrite !trace_plus, !trace_scale. cbn. ring.
  - assert (E : meq n (mmult n A (mplus D (mscale h X))) (mplus (mmult n A D) (mscale h (mmult n A X)))).
    { eapply meq_trans; [apply mmult_plus_r|]. apply mplus_meq; [apply meq_refl|apply mmult_scale_r]. }
    assert (E2 : meq n (dagger (mplus D (mscale h X))) (mplus (dagger D) (mscale h (dagger X)))) by (intros i j _ _; apply Ceq; cbn; ring).
    eapply meq_trans; [apply mmult_meq; [exact E2|exact E]|].
    eapply meq_trans; [apply mmult_plus_l|]. apply mplus_meq.
    + eapply meq_trans; [apply mmult_plus_r|]. apply mplus_meq; [apply meq_refl|apply mmult_scale_r].
    + eapply meq_trans; [apply mmult_scale_l|]. intros i j Hi Hj. unfold mscale at 1. rewrite (mmult_plus_r n _ _ _ i j Hi Hj).
      unfold mplus. rewrite (mmult_scale_r n _ _ _ i j Hi Hj). unfold mscale. apply Ceq; cbn; ring.
Qed.

(** ** Matrices without negative part stay so *)
Section Positive.
Variable n : nat.
Variables (A H G I : R -> mat).
Variables t0 t1 : R.
Hypothesis L : t0 <= t1.
Hypothesis eqn : forall s, t0 <= s <= t1 -> hermitian n (H s) /\ hermitian n (G s) /\ psd n (G s) /\ psd n (I s) /\
  mderiv n A s (rhs n (H s) (G s) (I s) (A s)).

Definition above (a t : R) : Prop := forall D, 0 <= quad n D (A t) + a * (1 + (t - t0)) * nrm n D.

Lemma above_open a t : 0 < a -> t0 <= t < t1 -> above a t -> exists d, 0 < d /\ forall h, 0 < h < d -> above a (t + h).
Proof.
  intros Ap T P. destruct (eqn t ltac:(lra)) as (Hh & Hg & Pg & Pi & M).
  set (Lg := lgen (H t) (G t)).
  destruct (quad_step n A t _ (a / 2) ltac:(lra) M) as (d & Dp & Hd).
  destruct (entries_bounded n (mmult n Lg (mmult n (A t) (dagger Lg)))) as (b1 & B1 & E1).
  destruct (entries_bounded n (mmult n Lg (dagger Lg))) as (b2 & B2 & E2).
  set (w := a * (1 + (t - t0))). assert (W : 0 < w) by (unfold w; apply Rmult_lt_0_compat; lra).
  pose proof (pos_INR n) as N0.
  set (k := 2 * INR n * b1 + w * (2 * INR n * b2)).
  assert (K0 : 0 <= k) by (unfold k; apply Rplus_le_le_0_compat; repeat apply Rmult_le_pos; lra).
  exists (Rmin d (a / 2 / (k + 1))). split; [apply Rmin_glb_lt; [exact Dp|apply Rdiv_lt_0_compat; lra]|].
  intros h [H0 H1] D. pose proof (Rmin_l d (a / 2 / (k + 1))). pose proof (Rmin_r d (a / 2 / (k + 1))).
  assert (Ha : Rabs h = h) by (apply Rabs_right; lra).
  specialize (Hd h D ltac:(rewrite Ha; lra)). rewrite Ha in Hd.
  rewrite (quad_meq n D _ _ (rhs_lgen n (H t) (G t) (I t) (A t) Hh Hg)) in Hd. fold Lg in Hd. rewrite quad_plus in Hd.
  set (X := mmult n (dagger Lg) D).
  pose proof (P (mplus D (mscale h X))) as PX. unfold X in PX. rewrite quad_shift in PX. rewrite <- quad_id, quad_shift in PX. fold X in PX.
  assert (QX : quad n X (A t) = quad n D (mmult n Lg (mmult n (A t) (dagger Lg)))).
  { unfold quad. f_equal. apply trace_meq. unfold X. eapply meq_trans; [apply mmult_meq; [apply dagger_mult|apply meq_refl]|].
    eapply meq_trans; [apply mmult_assoc|]. apply mmult_meq; [apply meq_refl|].
    eapply meq_trans; [|apply meq_sym, mmult_assoc]. apply mmult_meq; [apply dagger_dagger|].
    eapply meq_trans; [|apply meq_sym, mmult_assoc]. apply meq_refl. }
  assert (QI : quad n X mid = quad n D (mmult n Lg (dagger Lg))).
  { unfold quad. f_equal. apply trace_meq. unfold X. eapply meq_trans; [apply mmult_meq; [apply dagger_mult|apply mmult_id_l]|].
    eapply meq_trans; [apply mmult_assoc|]. apply mmult_meq; [apply meq_refl|].
    eapply meq_trans; [|apply meq_sym, mmult_assoc]. apply mmult_meq; [apply dagger_dagger|apply meq_refl]. }
  pose proof (quad_bound n D _ b1 B1 E1) as K1. rewrite <- QX in K1.
  pose proof (quad_bound n D _ b2 B2 E2) as K2. rewrite <- QI in K2.
  assert (GG : quad n D (mplus (mmult n Lg mid) (mmult n mid (dagger Lg))) = -2 * quad n D (G t)).
  { rewrite <- quad_scale. apply quad_meq. intros i j Hi Hj. unfold mplus. rewrite (mmult_id_r n _ i j Hi Hj), (mmult_id_l n _ i j Hi Hj).
    unfold Lg, dagger, lgen, mscale. pose proof (Hh i j Hi Hj) as e1. pose proof (Hg i j Hi Hj) as e2. unfold dagger in e1, e2.
    rewrite <- e1, <- e2. apply Ceq; cbn; ring. }
  rewrite GG, quad_id in PX. pose proof (Pg D) as GD. fold (quad n D (G t)) in GD. pose proof (Pi D) as ID. fold (quad n D (I t)) in ID.
  pose proof (nrm_pos n D) as ND. set (N := nrm n D) in *.
  replace (1 + (t + h - t0)) with (1 + (t - t0) + h) by ring.
  replace (a * (1 + (t - t0) + h)) with (w + a * h) by (unfold w; ring). fold w in PX.
  clearbody w N. clear QX QI GG Hh Hg Pg Pi M P.
  set (q0 := quad n D (A t)) in *. set (q1 := quad n D (mplus (mmult n Lg (A t)) (mmult n (A t) (dagger Lg)))) in *.
  set (q2 := quad n X (A t)) in *. set (q3 := quad n X mid) in *. set (g := quad n D (G t)) in *. set (i0 := quad n D (I t)) in *.
  set (qh := quad n D (A (t + h))) in *. clearbody q0 q1 q2 q3 g i0 qh.
  assert (A1 : q2 <= 2 * INR n * b1 * N) by (pose proof (Rle_abs q2); lra).
  assert (A2 : q3 <= 2 * INR n * b2 * N) by (pose proof (Rle_abs q3); lra).
  assert (A3 : - (a / 2 * h * N) <= qh - q0 - h * (q1 + i0)) by (revert Hd; unfold Rabs; destruct (Rcase_abs _); lra).
  assert (KN : 0 <= k * N) by (apply Rmult_le_pos; assumption).
  assert (Hk : h * (k + 1) <= a / 2).
  { apply Rle_trans with (a / 2 / (k + 1) * (k + 1)); [apply Rmult_le_compat_r; lra|]. unfold Rdiv at 1. rewrite Rmult_assoc, Rinv_l by lra. lra. }
  assert (A4 : q2 + w * q3 <= k * N) by (unfold k; replace ((2 * INR n * b1 + w * (2 * INR n * b2)) * N) with (2 * INR n * b1 * N + w * (2 * INR n * b2 * N)) by ring;
    apply Rplus_le_compat; [exact A1|]; apply Rmult_le_compat_l; lra).
  assert (A5 : h * h * (q2 + w * q3) <= h * (a / 2 * N)).
  { rewrite Rmult_assoc. apply Rmult_le_compat_l; [lra|]. apply Rle_trans with (h * (k * N)); [apply Rmult_le_compat_l; lra|].
    replace (h * (k * N)) with ((h * k) * N) by ring. apply Rmult_le_compat_r; lra. }
  assert (A6 : 0 <= h * i0) by (apply Rmult_le_pos; lra). assert (A7 : 0 <= w * (h * g)) by (apply Rmult_le_pos; [lra|apply Rmult_le_pos; lra]).
  nra.
Qed.

Lemma above_closed a t : 0 < a -> t0 < t <= t1 -> (forall s, t0 <= s < t -> above a s) -> above a t.
Proof.
  intros Ap T P D. destruct (eqn t ltac:(lra)) as (_ & _ & _ & _ & M).
  destruct (quad_step n A t _ 1 ltac:(lra) M) as (d & Dp & Hd). set (A' := rhs n (H t) (G t) (I t) (A t)) in *.
  pose proof (nrm_pos n D) as ND. set (q := quad n D (A t)) in *.
  apply le_epsilon. intros eps Ep.
  set (k := Rabs (quad n D A') + nrm n D). assert (K0 : 0 <= k) by (unfold k; pose proof (Rabs_pos (quad n D A')); lra).
  set (h := Rmin (d / 2) (Rmin (t - t0) (eps / (k + 1)))).
  assert (H0 : 0 < h) by (unfold h; repeat apply Rmin_glb_lt; try lra; apply Rdiv_lt_0_compat; lra).
  assert (H1 : h <= d / 2) by apply Rmin_l.
  assert (H2 : h <= Rmin (t - t0) (eps / (k + 1))) by apply Rmin_r.
  pose proof (Rmin_l (t - t0) (eps / (k + 1))). pose proof (Rmin_r (t - t0) (eps / (k + 1))).
  assert (Hk : h * (k + 1) <= eps).
  { apply Rle_trans with (eps / (k + 1) * (k + 1)); [apply Rmult_le_compat_r; lra|]. unfold Rdiv. rewrite Rmult_assoc, Rinv_l by lra. lra. }
  clearbody h. assert (Ha : Rabs (- h) = h) by (rewrite Rabs_Ropp; apply Rabs_right; lra).
  specialize (Hd (- h) D ltac:(rewrite Ha; lra)). rewrite Ha in Hd.
  pose proof (P (t + - h) ltac:(lra) D) as PX. fold q in Hd. set (q' := quad n D (A (t + - h))) in *.
  assert (A1 : q' <= q + - h * quad n D A' + 1 * h * nrm n D) by (revert Hd; unfold Rabs; destruct (Rcase_abs _); lra).
  assert (A2 : - h * quad n D A' <= h * Rabs (quad n D A')).
  { replace (- h * quad n D A') with (h * - quad n D A') by ring. apply Rmult_le_compat_l; [lra|]. rewrite <- Rabs_Ropp. apply Rle_abs. }
  assert (A3 : a * (1 + (t + - h - t0)) * nrm n D <= a * (1 + (t - t0)) * nrm n D) by (apply Rmult_le_compat_r; [exact ND|]; apply Rmult_le_compat_l; lra).
  assert (A4 : h * Rabs (quad n D A') + 1 * h * nrm n D <= eps) by (fold k in Hk; replace (h * Rabs (quad n D A') + 1 * h * nrm n D) with (h * k) by (unfold k; ring); lra).
  lra.
Qed.

Lemma stays_psd : psd n (A t0) -> forall s, t0 <= s <= t1 -> psd n (A s).
Proof.
  intros P0 s S D. change (0 <= quad n D (A s)). apply le_epsilon. intros eps Ep.
  pose proof (nrm_pos n D) as ND.
  set (a := eps / ((1 + (s - t0)) * (nrm n D + 1))).
  assert (Q0 : 0 < (1 + (s - t0)) * (nrm n D + 1)) by (apply Rmult_lt_0_compat; lra).
  assert (Ap : 0 < a) by (apply Rdiv_lt_0_compat; lra).
  assert (B : above a s).
  { apply (real_ind (above a) t0 t1); try assumption.
    - intros t N D'. destruct (Rle_lt_dec 0 (quad n D' (A t) + a * (1 + (t - t0)) * nrm n D')) as [Y|Y]; [exact Y|].
      exfalso. apply N. intro C. specialize (C D'). lra.
    - intro D'. pose proof (P0 D') as X. fold (quad n D' (A t0)) in X. pose proof (nrm_pos n D').
      assert (0 <= a * (1 + (t0 - t0)) * nrm n D') by (apply Rmult_le_pos; [apply Rmult_le_pos; lra|assumption]). lra.
    - intros t T. apply above_open; assumption.
    - intros t T. apply above_closed; assumption. }
  specialize (B D).
  assert (E : a * (1 + (s - t0)) * nrm n D <= eps).
  { unfold a. apply Rle_trans with (eps / ((1 + (s - t0)) * (nrm n D + 1)) * ((1 + (s - t0)) * (nrm n D + 1))).
    - rewrite Rmult_assoc. apply Rmult_le_compat_l; [left; exact Ap|]. apply Rmult_le_compat_l; lra.
    - unfold Rdiv. rewrite Rmult_assoc, Rinv_l by lra. lra. }
  lra.
Qed.
End Positive.

(** ** Contents *)
Lemma psd_content n P A : projector n P -> psd n A -> 0 <= re (trace n (mmult n P A)).
Proof.
  intros [Hp Ip] Q. pose proof (Q P) as X.
  replace (trace n (mmult n P A)) with (trace n (mmult n (dagger P) (mmult n A P))); [exact X|].
  rewrite (trace_meq n _ (mmult n P (mmult n A P))) by (apply mmult_meq; [exact Hp|apply meq_refl]).
  rewrite trace_cycle. rewrite (trace_meq n _ (mmult n A (mmult n P P))) by apply mmult_assoc.
  rewrite (trace_meq n _ (mmult n A P)) by (apply mmult_meq; [apply meq_refl|exact Ip]). apply trace_cycle.
Qed.
Lemma herm_plus n A B : hermitian n A -> hermitian n B -> hermitian n (mplus A B).
Proof. intros P Q i j I J. unfold dagger, mplus in *. rewrite <- (P i j I J), <- (Q i j I J). unfold dagger. apply Ceq; cbn; ring. Qed.
Lemma herm_scale n x A : hermitian n A -> hermitian n (mscale x A).
Proof. intros P i j I J. unfold dagger, mscale in *. rewrite <- (P i j I J). unfold dagger. apply Ceq; cbn; ring. Qed.
Lemma herm_zero n : hermitian n mzero.
Proof. intros i j I J. apply Ceq; cbn; ring. Qed.
Lemma herm_meq n A B : meq n A B -> hermitian n A -> hermitian n B.
Proof. intros E P. unfold hermitian. eapply meq_trans; [apply dagger_meq, meq_sym, E|]. eapply meq_trans; [exact P|exact E]. Qed.

(** ** Hermitian matrices stay so *)
Lemma mderiv_dagger n A t A' : mderiv n A t A' -> mderiv n (fun s => dagger (A s)) t (dagger A').
Proof.
  intros M i j I J. destruct (M j i J I) as [M1 M2]. split; [exact M1|]. unfold dagger. cbn.
  apply (derivable_pt_lim_opp (fun s => im (A s j i))). exact M2.
Qed.
Lemma rhs_dagger n H G I A : hermitian n H -> hermitian n G -> hermitian n I -> meq n (dagger (rhs n H G I A)) (rhs n H G I (dagger A)).
Proof.
  intros Hh Hg Hi i j Ii Jj. unfold rhs, coherent, anti. unfold dagger at 1. unfold mplus, mscale.
  assert (T : forall M, hermitian n M -> mmult n M (dagger A) i j = cconj (mmult n A M j i) /\ mmult n (dagger A) M i j = cconj (mmult n M A j i)).
  { intros M HM. unfold mmult. rewrite !csum_conj. split; apply csum_ext; intros k K; rewrite conj_mult.
    - rewrite <- (HM i k Ii K). unfold dagger. apply Ceq; cbn; ring.
    - rewrite <- (HM k j K Jj). unfold dagger. apply Ceq; cbn; ring. }
  destruct (T H Hh) as [T1 T2]. destruct (T G Hg) as [T3 T4]. rewrite T1, T2, T3, T4. rewrite <- (Hi i j Ii Jj). unfold dagger. apply Ceq; cbn; ring.
Qed.
Lemma stays_hermitian n (A H G I : R -> mat) t0 t1 : t0 <= t1 ->
  (forall s, t0 <= s <= t1 -> hermitian n (H s) /\ hermitian n (G s) /\ psd n (G s) /\ hermitian n (I s) /\ mderiv n A s (rhs n (H s) (G s) (I s) (A s))) ->
  hermitian n (A t0) -> forall s, t0 <= s <= t1 -> hermitian n (A s).
Proof.
  intros L D E s S. unfold hermitian. apply (same_solution n (fun u => dagger (A u)) A H G I I t0 t1 L); try assumption.
  intros u U. destruct (D u U) as (Hh & Hg & Pg & Hi & M). split; [exact Hh|]. split; [exact Pg|]. split; [apply meq_refl|]. split; [|exact M].
  eapply mderiv_meq; [apply rhs_dagger; assumption|]. apply mderiv_dagger, M.
Qed.
