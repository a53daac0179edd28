(** Facts on averaged read-outs. *)
From Coq Require Import Reals List Arith Bool Lia Lra.
From Verif Require Import CMatrix FlavorModel FlavorProofs AvgModel.
Import ListNotations.
Open Scope R_scope.

Lemma fast_iff scale H t a b :
  fast scale H t a b = true <-> a <> b /\ scale < Rabs ((re (H a a) - re (H b b)) * t).
Proof.
  unfold fast. rewrite andb_true_iff, negb_true_iff, Nat.eqb_neq.
  destruct (Rlt_dec _ _) as [L|L]; split; intros (A & B); split; auto; try discriminate; contradiction.
Qed.
Lemma fast_not scale H t a b :
  fast scale H t a b = false <-> a = b \/ Rabs ((re (H a a) - re (H b b)) * t) <= scale.
Proof.
  destruct (fast scale H t a b) eqn:E.
  - apply fast_iff in E as (A & B). split; [discriminate|]. intros [X|X]; [contradiction|lra].
  - split; [|reflexivity]. intros _. destruct (Nat.eq_dec a b) as [X|X]; [auto|]. right.
    destruct (Rlt_dec scale (Rabs ((re (H a a) - re (H b b)) * t))) as [Q|Q]; [|lra].
    assert (fast scale H t a b = true) by (apply fast_iff; auto). congruence.
Qed.

Lemma avg_same n scale H t A :
  (forall a b, (a < n)%nat -> (b < n)%nat -> Rabs ((re (H a a) - re (H b b)) * t) <= scale) ->
  meq n (avg_evolve scale H t A) (evolve H t A).
Proof.
  intros L a b Ha Hb. unfold avg_evolve. rewrite (proj2 (fast_not _ _ _ _ _)) by (right; apply L; assumption). reflexivity.
Qed.

Lemma avg_meq n scale H t A B : meq n A B -> meq n (avg_evolve scale H t A) (avg_evolve scale H t B).
Proof.
  intros E a b Ha Hb. unfold avg_evolve. destruct (fast scale H t a b); [reflexivity|]. apply (evolve_meq n H t A B E a b Ha Hb).
Qed.

Lemma evolve_diag H t A a : evolve H t A a a = A a a.
Proof. unfold evolve. replace ((re (H a a) - re (H a a)) * t) with 0 by ring. rewrite cexp_0. ring. Qed.
Lemma avg_diag scale H t A a : avg_evolve scale H t A a a = A a a.
Proof. unfold avg_evolve. rewrite (proj2 (fast_not _ _ _ _ _)) by (left; reflexivity). apply evolve_diag. Qed.

Lemma avg_b0 n scale H t k : meq n (avg_evolve scale H t (b0_proj k)) (b0_proj k).
Proof.
  intros a b Ha Hb. destruct (Nat.eq_dec a b) as [->|N]; [apply avg_diag|].
  assert (Z : b0_proj k a b = c0).
  { unfold b0_proj, ket_proj. destruct (Nat.eq_dec a k) as [->|M]; [rewrite (delta_ne b k) by congruence|rewrite (delta_ne a k) by assumption]; ring. }
  unfold avg_evolve. destruct (fast scale H t a b); [symmetry; exact Z|]. unfold evolve. rewrite Z. ring.
Qed.

(** sum of all flavours *)
Lemma avg_sum n scale H t P : meq n (msum n P) mid ->
  meq n (msum n (fun k => avg_evolve scale H t (P k))) mid.
Proof.
  intros E a b Ha Hb. rewrite msum_at. pose proof (E a b Ha Hb) as D. rewrite msum_at in D. unfold mid in *.
  destruct (fast scale H t a b) eqn:F.
  - rewrite csum_zero. 2:{ intros k _. unfold avg_evolve. rewrite F. reflexivity. }
    apply fast_iff in F as (N & _). rewrite delta_ne by exact N. reflexivity.
  - rewrite (csum_ext n _ (fun k => (cexp ((re (H a a) - re (H b b)) * t) * P k a b)%C)).
    2:{ intros k _. unfold avg_evolve. rewrite F. reflexivity. }
    rewrite csum_mult_l, D. destruct (Nat.eq_dec a b) as [->|N].
    + replace ((re (H b b) - re (H b b)) * t) with 0 by ring. rewrite cexp_0. ring.
    + rewrite delta_ne by exact N. ring.
Qed.

(** the value, element by element *)
Lemma avg_value n scale H t A rho :
  expect n (avg_evolve scale H t A) rho =
  rsum n (fun a => rsum n (fun b =>
    if fast scale H t a b then 0 else re (cexp ((re (H a a) - re (H b b)) * t) * (A a b * rho b a))%C)).
Proof.
  unfold expect, trace, mmult. rewrite csum_re. apply rsum_ext. intros a _. rewrite csum_re. apply rsum_ext. intros b _.
  unfold avg_evolve. destruct (fast scale H t a b); [cbn; ring|]. unfold evolve. f_equal. ring.
Qed.
Lemma plain_value n H t A rho :
  expect n (evolve H t A) rho =
  rsum n (fun a => rsum n (fun b => re (cexp ((re (H a a) - re (H b b)) * t) * (A a b * rho b a))%C)).
Proof.
  unfold expect, trace, mmult. rewrite csum_re. apply rsum_ext. intros a _. rewrite csum_re. apply rsum_ext. intros b _.
  unfold evolve. f_equal. ring.
Qed.

Lemma rsum_zero n f : (forall i, (i < n)%nat -> f i = 0) -> rsum n f = 0.
Proof. induction n as [|n IH]; intro E; cbn [rsum]; [reflexivity|]. rewrite IH, E by (auto with arith). ring. Qed.
Lemma rsum_one n k f : (k < n)%nat -> (forall i, (i < n)%nat -> i <> k -> f i = 0) -> rsum n f = f k.
Proof.
  induction n as [|n IH]; intros L E; [lia|]. cbn [rsum]. destruct (Nat.eq_dec k n) as [->|N].
  - rewrite rsum_zero; [ring|]. intros i Hi. apply E; lia.
  - rewrite IH, (E n); [ring|lia|lia|lia|]. intros i Hi M. apply E; lia.
Qed.

(** everything averaged: only the diagonals count *)
Lemma avg_all n scale H t A rho :
  (forall a b, (a < n)%nat -> (b < n)%nat -> a <> b -> scale < Rabs ((re (H a a) - re (H b b)) * t)) ->
  expect n (avg_evolve scale H t A) rho = rsum n (fun a => re (A a a * rho a a)%C).
Proof.
  intro L. rewrite avg_value. apply rsum_ext. intros a Ha. rewrite (rsum_one n a).
  - rewrite (proj2 (fast_not _ _ _ _ _)) by (left; reflexivity).
    replace ((re (H a a) - re (H a a)) * t) with 0 by ring. rewrite cexp_0. f_equal. ring.
  - exact Ha.
  - intros b Hb N. rewrite (proj2 (fast_iff _ _ _ _ _)); [reflexivity|]. split; [congruence|]. apply L; congruence.
Qed.

Lemma ini_diag n W Q v a : frame n W Q -> (a < n)%nat ->
  msum n (fun j => mscale (v j) (Q j)) a a = rtc (rsum n (fun j => cnorm2 (W a j) * v j)).
Proof.
  intros F Ha. rewrite msum_at, rtc_rsum. apply csum_ext. intros j Hj. unfold mscale.
  rewrite (F j Hj a a Ha Ha). unfold outer. rewrite mult_conj, rtc_mult. ring.
Qed.

(** rows and columns of moduli add up to one *)
Lemma moduli_row n V a : unitary n V -> (a < n)%nat -> rsum n (fun k => cnorm2 (V a k)) = 1.
Proof.
  intros (U & _) Ha. pose proof (U a a Ha Ha) as E. unfold mmult, dagger, mid in E. rewrite delta_eq in E.
  apply (f_equal re) in E. rewrite csum_re in E. cbn [re c1] in E. rewrite <- E. apply rsum_ext. intros k _.
  rewrite mult_conj. reflexivity.
Qed.
Lemma moduli_col n V k : unitary n V -> (k < n)%nat -> rsum n (fun a => cnorm2 (V a k)) = 1.
Proof.
  intros (_ & U) Hk. pose proof (U k k Hk Hk) as E. unfold mmult, dagger, mid in E. rewrite delta_eq in E.
  apply (f_equal re) in E. rewrite csum_re in E. cbn [re c1] in E. rewrite <- E. apply rsum_ext. intros a _.
  unfold cnorm2. cbn. ring.
Qed.

Lemma rsum_scal_r n x f : rsum n (fun i => f i * x) = rsum n f * x.
Proof. induction n as [|n IH]; cbn [rsum]; [ring|]. rewrite IH. ring. Qed.

(** a weighted mean lies between bounds *)
Lemma mean_between n w x lo hi : (forall i, (i < n)%nat -> 0 <= w i) -> rsum n w = 1 ->
  (forall i, (i < n)%nat -> lo <= x i <= hi) -> lo <= rsum n (fun i => w i * x i) <= hi.
Proof.
  intros P One B. split.
  - replace lo with (rsum n w * lo) by (rewrite One; ring). rewrite <- rsum_scal_r. apply rsum_le. intros i Hi.
    apply Rmult_le_compat_l; [apply P, Hi|apply B, Hi].
  - replace hi with (rsum n w * hi) by (rewrite One; ring). rewrite <- rsum_scal_r. apply rsum_le. intros i Hi.
    apply Rmult_le_compat_l; [apply P, Hi|apply B, Hi].
Qed.

(** the sum of squares of [n] numbers adding up to one is at least 1/n *)
Lemma rsum_const n x : rsum n (fun _ => x) = INR n * x.
Proof. induction n as [|n IH]; [cbn; ring|]. cbn [rsum]. rewrite IH, S_INR. ring. Qed.
Lemma squares n w : rsum n w = 1 -> 1 <= INR n * rsum n (fun i => w i * w i).
Proof.
  intro One. destruct n as [|n]; [cbn in One; lra|]. set (m := S n) in *.
  assert (Hm : 0 < INR m) by (apply lt_0_INR; lia).
  assert (P : 0 <= rsum m (fun i => (w i - / INR m) * (w i - / INR m))) by (apply rsum_pos; intros i _; apply Rle_0_sqr).
  assert (E : rsum m (fun i => (w i - / INR m) * (w i - / INR m)) = rsum m (fun i => w i * w i) - / INR m).
  { rewrite (rsum_ext m _ (fun i => w i * w i + ((-2 * / INR m) * w i + / INR m * / INR m))) by (intros; ring).
    rewrite rsum_plus, rsum_plus, rsum_scal, rsum_const, One. field. lra. }
  rewrite E in P. apply (Rmult_le_compat_l (INR m)) in P; [|lra]. rewrite Rmult_0_r in P.
  replace (INR m * (rsum m (fun i => w i * w i) - / INR m)) with (INR m * rsum m (fun i => w i * w i) - 1) in P by (field; lra).
  lra.
Qed.

(** turning the signs of all phases conjugates the matrix *)
Lemma mixing_conj n th dl order a b :
  mixing n th (fun i j => - dl i j) order a b = cconj (mixing n th dl order a b).
Proof.
  revert a b. induction order as [|(i, j) l IH]; intros a b; cbn [mixing].
  - unfold mid, delta. destruct (Nat.eqb a b); [rewrite conj_1|rewrite conj_0]; reflexivity.
  - unfold mmult. rewrite csum_conj. apply csum_ext. intros c _. rewrite conj_mult, <- IH. f_equal.
    unfold rot, delta. destruct (Nat.eqb a i), (Nat.eqb c i), (Nat.eqb c j), (Nat.eqb a j), (Nat.eqb a c);
      rewrite ?conj_mult, ?conj_rtc, ?cexp_conj, ?conj_0, ?conj_1; reflexivity.
Qed.
Lemma cnorm2_conj z : cnorm2 (cconj z) = cnorm2 z.
Proof. unfold cnorm2. cbn. ring. Qed.
Lemma fixed_moduli n th dl order nt r a b :
  cnorm2 (mixing n th (fixed_phases nt r dl) order a b) = cnorm2 (mixing n th dl order a b).
Proof.
  unfold fixed_phases. destruct nt; [reflexivity| |destruct (Nat.eqb r 1); [|reflexivity]];
    rewrite mixing_conj; apply cnorm2_conj.
Qed.

(** ** Primitive of the oscillating read-out *)
Definition prim1 (w : R) (m : C) (T : R) : R :=
  if Req_EM_T w 0 then T * re m else (sin (w * T) * re m + cos (w * T) * im m) / w.
Lemma prim1_deriv w m T : derivable_pt_lim (prim1 w m) T (re (cexp (w * T) * m)%C).
Proof.
  unfold prim1. destruct (Req_EM_T w 0) as [->|N].
  - rewrite Rmult_0_l, cexp_0. replace (re (c1 * m)%C) with (1 * re m + T * 0) by (cbn; ring).
    apply (derivable_pt_lim_mult id (fct_cte (re m))); [apply derivable_pt_lim_id|apply derivable_pt_lim_const].
  - assert (L : derivable_pt_lim (fun T => w * T) T w).
    { pose proof (derivable_pt_lim_scal id w T 1 (derivable_pt_lim_id T)) as L. rewrite Rmult_1_r in L. exact L. }
    assert (D : derivable_pt_lim (fun T => (re m / w) * sin (w * T) + (im m / w) * cos (w * T)) T
                  ((re m / w) * (cos (w * T) * w) + (im m / w) * (- sin (w * T) * w))).
    { apply (derivable_pt_lim_plus (fun T => (re m / w) * sin (w * T)) (fun T => (im m / w) * cos (w * T))).
      - apply (derivable_pt_lim_scal (fun T => sin (w * T))).
        apply (derivable_pt_lim_comp (fun T => w * T) sin); [exact L|apply derivable_pt_lim_sin].
      - apply (derivable_pt_lim_scal (fun T => cos (w * T))).
        apply (derivable_pt_lim_comp (fun T => w * T) cos); [exact L|apply derivable_pt_lim_cos]. }
    replace (re (cexp (w * T) * m)%C) with ((re m / w) * (cos (w * T) * w) + (im m / w) * (- sin (w * T) * w)).
    2:{ unfold cexp. cbn [re im cmult]. field. exact N. }
    intros eps He. destruct (D eps He) as (d & Hd). exists d. intros h H1 H2. specialize (Hd h H1 H2).
    replace ((sin (w * (T + h)) * re m + cos (w * (T + h)) * im m) / w) with
      (re m / w * sin (w * (T + h)) + im m / w * cos (w * (T + h))) by (field; exact N).
    replace ((sin (w * T) * re m + cos (w * T) * im m) / w) with
      (re m / w * sin (w * T) + im m / w * cos (w * T)) by (field; exact N).
    exact Hd.
Qed.
Lemma prim1_bound w m T :
  Rabs (prim1 w m T - prim1 w m 0 - T * (if Req_EM_T w 0 then re m else 0)) <=
  (if Req_EM_T w 0 then 0 else (Rabs (re m) + 2 * Rabs (im m)) / Rabs w).
Proof.
  unfold prim1. destruct (Req_EM_T w 0) as [->|N].
  - replace (T * re m - 0 * re m - T * re m) with 0 by ring. rewrite Rabs_R0. lra.
  - rewrite Rmult_0_r, sin_0, cos_0.
    replace ((sin (w * T) * re m + cos (w * T) * im m) / w - (0 * re m + 1 * im m) / w - T * 0) with
      ((sin (w * T) * re m + (cos (w * T) - 1) * im m) / w) by (field; exact N).
    unfold Rdiv. rewrite Rabs_mult, Rabs_inv. apply Rmult_le_compat_r.
    { left. apply Rinv_0_lt_compat, Rabs_pos_lt, N. }
    eapply Rle_trans; [apply Rabs_triang|]. rewrite !Rabs_mult.
    assert (A : Rabs (sin (w * T)) <= 1) by (apply Rabs_le; apply SIN_bound).
    assert (B : Rabs (cos (w * T) - 1) <= 2) by (apply Rabs_le; pose proof (COS_bound (w * T)); lra).
    pose proof (Rabs_pos (re m)). pose proof (Rabs_pos (im m)). nra.
Qed.

Lemma rsum_deriv n (f : nat -> R -> R) (d : nat -> R) t :
  (forall i, (i < n)%nat -> derivable_pt_lim (f i) t (d i)) ->
  derivable_pt_lim (fun s => rsum n (fun i => f i s)) t (rsum n d).
Proof.
  induction n as [|n IH]; intro D; cbn [rsum].
  - apply (derivable_pt_lim_const 0).
  - apply (derivable_pt_lim_plus (fun s => rsum n (fun i => f i s)) (f n)); [apply IH; auto with arith|apply D; lia].
Qed.
Lemma rsum_abs n f : Rabs (rsum n f) <= rsum n (fun i => Rabs (f i)).
Proof.
  induction n as [|n IH]; cbn [rsum]; [rewrite Rabs_R0; lra|]. eapply Rle_trans; [apply Rabs_triang|]. lra.
Qed.
Lemma rsum_minus n f g : rsum n (fun i => f i - g i) = rsum n f - rsum n g.
Proof. induction n as [|n IH]; cbn [rsum]; [ring|]. rewrite IH. ring. Qed.
