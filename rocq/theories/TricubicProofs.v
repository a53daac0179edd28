(** Proofs about the tricubic interpolator. *)
From Coq Require Import List Arith Bool ZArith Reals Lra Lia.
From Verif Require Import Err AkimaModel PiecewiseProofs AkimaProofs BicubicModel BicubicProofs TricubicModel.
Import ListNotations.
Local Open Scope R_scope.

(** *** Continuity of functions of three reals *)
Definition cont3 (F : R -> R -> R -> R) (x y z : R) : Prop :=
  forall e, 0 < e -> exists d, 0 < d /\ forall x' y' z', Rabs (x' - x) < d -> Rabs (y' - y) < d -> Rabs (z' - z) < d -> Rabs (F x' y' z' - F x y z) < e.
Lemma cont3_const c x y z : cont3 (fun _ _ _ => c) x y z.
Proof. intros e He. exists 1. split; [lra|]. intros. rewrite Rminus_eq_0, Rabs_R0. exact He. Qed.
Lemma cont3_1 x y z : cont3 (fun a _ _ => a) x y z.
Proof. intros e He. exists e. split; [lra|]. intros. assumption. Qed.
Lemma cont3_2 x y z : cont3 (fun _ b _ => b) x y z.
Proof. intros e He. exists e. split; [lra|]. intros. assumption. Qed.
Lemma cont3_3 x y z : cont3 (fun _ _ c => c) x y z.
Proof. intros e He. exists e. split; [lra|]. intros. assumption. Qed.
Lemma cont3_plus F G x y z : cont3 F x y z -> cont3 G x y z -> cont3 (fun a b c => F a b c + G a b c) x y z.
Proof.
  intros HF HG e He. destruct (HF (e / 2) ltac:(lra)) as (d1 & Hd1 & H1). destruct (HG (e / 2) ltac:(lra)) as (d2 & Hd2 & H2).
  exists (Rmin d1 d2). split; [now apply Rmin_glb_lt|]. intros a b c Ha Hb Hc. pose proof (Rmin_l d1 d2). pose proof (Rmin_r d1 d2).
  specialize (H1 a b c ltac:(lra) ltac:(lra) ltac:(lra)). specialize (H2 a b c ltac:(lra) ltac:(lra) ltac:(lra)).
  replace (F a b c + G a b c - (F x y z + G x y z)) with ((F a b c - F x y z) + (G a b c - G x y z)) by ring.
  eapply Rle_lt_trans; [apply Rabs_triang|]. lra.
Qed.
Lemma cont3_opp F x y z : cont3 F x y z -> cont3 (fun a b c => - F a b c) x y z.
Proof.
  intros H e He. destruct (H e He) as (d & Hd & Hq). exists d. split; [exact Hd|]. intros a b c Ha Hb Hc.
  replace (- F a b c - - F x y z) with (- (F a b c - F x y z)) by ring. rewrite Rabs_Ropp. now apply Hq.
Qed.
Lemma cont3_mult F G x y z : cont3 F x y z -> cont3 G x y z -> cont3 (fun a b c => F a b c * G a b c) x y z.
Proof.
  intros HF HG e He. set (f := F x y z). set (g := G x y z). set (M := Rabs f + Rabs g + 1).
  assert (HM : 1 <= M) by (unfold M; pose proof (Rabs_pos f); pose proof (Rabs_pos g); lra).
  set (e1 := Rmin 1 (e / (2 * M))).
  assert (He1 : 0 < e1) by (unfold e1; apply Rmin_glb_lt; [lra|]; apply Rdiv_lt_0_compat; lra).
  destruct (HF e1 He1) as (d1 & Hd1 & H1). destruct (HG e1 He1) as (d2 & Hd2 & H2).
  exists (Rmin d1 d2). split; [now apply Rmin_glb_lt|]. intros a b c Ha Hb Hc. pose proof (Rmin_l d1 d2). pose proof (Rmin_r d1 d2).
  specialize (H1 a b c ltac:(lra) ltac:(lra) ltac:(lra)). specialize (H2 a b c ltac:(lra) ltac:(lra) ltac:(lra)). fold f in H1. fold g in H2.
  replace (F a b c * G a b c - f * g) with ((F a b c - f) * (G a b c - g) + (F a b c - f) * g + f * (G a b c - g)) by ring.
  pose proof (Rmin_l 1 (e / (2 * M))) as Hm1. pose proof (Rmin_r 1 (e / (2 * M))) as Hm2. fold e1 in Hm1, Hm2.
  pose proof (Rabs_pos (F a b c - f)) as P1. pose proof (Rabs_pos (G a b c - g)) as P2. pose proof (Rabs_pos f) as P3. pose proof (Rabs_pos g) as P4.
  eapply Rle_lt_trans; [apply Rabs_triang|]. eapply Rle_lt_trans; [apply Rplus_le_compat_r, Rabs_triang|]. rewrite !Rabs_mult.
  assert (Hb1 : Rabs (F a b c - f) * Rabs (G a b c - g) <= e1 * 1) by (apply Rmult_le_compat; lra).
  assert (Hb2 : Rabs (F a b c - f) * Rabs g <= e1 * Rabs g) by (apply Rmult_le_compat_r; lra).
  assert (Hb3 : Rabs f * Rabs (G a b c - g) <= Rabs f * e1) by (apply Rmult_le_compat_l; lra).
  assert (Hsum : e1 * M <= e / 2).
  { apply Rle_trans with (e / (2 * M) * M); [apply Rmult_le_compat_r; lra|]. right. field. lra. }
  unfold M in Hsum. lra.
Qed.
Lemma cont3_herm f0 f1 g0 g1 w x y z : cont3 f0 x y z -> cont3 f1 x y z -> cont3 g0 x y z -> cont3 g1 x y z -> cont3 w x y z ->
  cont3 (fun a b c => herm (f0 a b c) (f1 a b c) (g0 a b c) (g1 a b c) (w a b c)) x y z.
Proof.
  intros H1 H2 H3 H4 H5. unfold herm, Rminus.
  repeat first [assumption | apply cont3_const | apply cont3_plus | apply cont3_mult | apply cont3_opp].
Qed.

Section Cells3.
Variables (F : R -> R -> R -> R) (Nx Ny Nz : nat) (X Y Z : nat -> R) (G : nat -> nat -> nat -> R -> R -> R -> R).
Hypotheses (HNx : (0 < Nx)%nat) (HNy : (0 < Ny)%nat) (HNz : (0 < Nz)%nat).
Hypothesis HX : forall i, (S i < Nx)%nat -> X i < X (S i).
Hypothesis HY : forall i, (S i < Ny)%nat -> Y i < Y (S i).
Hypothesis HZ : forall i, (S i < Nz)%nat -> Z i < Z (S i).
Hypothesis HF : forall i j k x y z, (i < Nx)%nat -> (j < Ny)%nat -> (k < Nz)%nat -> on_piece Nx X i x -> on_piece Ny Y j y -> on_piece Nz Z k z -> F x y z = G i j k x y z.
Lemma cells3_continuous : (forall i j k x y z, (i < Nx)%nat -> (j < Ny)%nat -> (k < Nz)%nat -> cont3 (G i j k) x y z) -> forall x y z, cont3 F x y z.
Proof.
  intros HG x y z e He.
  destruct (cover Nx X HNx HX x) as (i1 & i2 & dx & Hi1 & Hi2 & Hdx & Px1 & Px2 & Cx).
  destruct (cover Ny Y HNy HY y) as (j1 & j2 & dy & Hj1 & Hj2 & Hdy & Py1 & Py2 & Cy).
  destruct (cover Nz Z HNz HZ z) as (k1 & k2 & dz & Hk1 & Hk2 & Hdz & Pz1 & Pz2 & Cz).
  assert (Hall : exists d, 0 < d /\ forall i j k, i = i1 \/ i = i2 -> j = j1 \/ j = j2 -> k = k1 \/ k = k2 ->
    forall a b c, Rabs (a - x) < d -> Rabs (b - y) < d -> Rabs (c - z) < d -> Rabs (G i j k a b c - G i j k x y z) < e).
  { destruct (HG i1 j1 k1 x y z Hi1 Hj1 Hk1 e He) as (d1 & Hd1 & H1). destruct (HG i1 j2 k1 x y z Hi1 Hj2 Hk1 e He) as (d2 & Hd2 & H2).
    destruct (HG i2 j1 k1 x y z Hi2 Hj1 Hk1 e He) as (d3 & Hd3 & H3). destruct (HG i2 j2 k1 x y z Hi2 Hj2 Hk1 e He) as (d4 & Hd4 & H4).
    destruct (HG i1 j1 k2 x y z Hi1 Hj1 Hk2 e He) as (d5 & Hd5 & H5). destruct (HG i1 j2 k2 x y z Hi1 Hj2 Hk2 e He) as (d6 & Hd6 & H6).
    destruct (HG i2 j1 k2 x y z Hi2 Hj1 Hk2 e He) as (d7 & Hd7 & H7). destruct (HG i2 j2 k2 x y z Hi2 Hj2 Hk2 e He) as (d8 & Hd8 & H8).
    exists (Rmin (Rmin (Rmin d1 d2) (Rmin d3 d4)) (Rmin (Rmin d5 d6) (Rmin d7 d8))). split; [repeat apply Rmin_glb_lt; assumption|].
    set (m1 := Rmin d1 d2). set (m2 := Rmin d3 d4). set (m3 := Rmin d5 d6). set (m4 := Rmin d7 d8). set (m5 := Rmin m1 m2). set (m6 := Rmin m3 m4).
    assert (A : m1 <= d1 /\ m1 <= d2 /\ m2 <= d3 /\ m2 <= d4 /\ m3 <= d5 /\ m3 <= d6 /\ m4 <= d7 /\ m4 <= d8 /\ m5 <= m1 /\ m5 <= m2 /\ m6 <= m3 /\ m6 <= m4 /\ Rmin m5 m6 <= m5 /\ Rmin m5 m6 <= m6)
      by (repeat split; first [apply Rmin_l | apply Rmin_r]).
    intros i j k [->| ->] [->| ->] [->| ->] a b c Ha Hb Hc;
      first [apply H1; lra | apply H2; lra | apply H3; lra | apply H4; lra | apply H5; lra | apply H6; lra | apply H7; lra | apply H8; lra]. }
  destruct Hall as (d & Hd & Hall).
  exists (Rmin (Rmin dx dy) (Rmin dz d)). split; [repeat apply Rmin_glb_lt; assumption|].
  intros a b c Ha Hb Hc.
  pose proof (Rmin_l (Rmin dx dy) (Rmin dz d)). pose proof (Rmin_r (Rmin dx dy) (Rmin dz d)).
  pose proof (Rmin_l dx dy). pose proof (Rmin_r dx dy). pose proof (Rmin_l dz d). pose proof (Rmin_r dz d).
  assert (Ex : exists i, (i < Nx)%nat /\ (i = i1 \/ i = i2) /\ on_piece Nx X i a /\ on_piece Nx X i x)
    by (destruct (Cx a ltac:(lra)); [exists i1|exists i2]; auto).
  assert (Ey : exists j, (j < Ny)%nat /\ (j = j1 \/ j = j2) /\ on_piece Ny Y j b /\ on_piece Ny Y j y)
    by (destruct (Cy b ltac:(lra)); [exists j1|exists j2]; auto).
  assert (Ez : exists k, (k < Nz)%nat /\ (k = k1 \/ k = k2) /\ on_piece Nz Z k c /\ on_piece Nz Z k z)
    by (destruct (Cz c ltac:(lra)); [exists k1|exists k2]; auto).
  destruct Ex as (i & Hi & Ei & A1 & A2). destruct Ey as (j & Hj & Ej & B1 & B2). destruct Ez as (k & Hk & Ek & C1 & C2).
  rewrite (HF i j k a b c), (HF i j k x y z) by assumption. apply Hall; trivial; lra.
Qed.
End Cells3.

(** *** The cell polynomial is the product of three Hermite cubics *)
Section Poly.
Variables (d : nat -> R) (t u v : R).
Definition hV m := herm (d (2 * m)%nat) (d (1 + 2 * m)%nat) (d (8 + 2 * m)%nat) (d (9 + 2 * m)%nat) t.
Definition hY m := herm (d (16 + 2 * m)%nat) (d (17 + 2 * m)%nat) (d (32 + 2 * m)%nat) (d (33 + 2 * m)%nat) t.
Definition hZ m := herm (d (24 + 2 * m)%nat) (d (25 + 2 * m)%nat) (d (40 + 2 * m)%nat) (d (41 + 2 * m)%nat) t.
Definition hW m := herm (d (48 + 2 * m)%nat) (d (49 + 2 * m)%nat) (d (56 + 2 * m)%nat) (d (57 + 2 * m)%nat) t.
Definition tensor : R :=
  herm (herm (hV 0) (hV 1) (hY 0) (hY 1) u) (herm (hV 2) (hV 3) (hY 2) (hY 3) u)
       (herm (hZ 0) (hZ 1) (hW 0) (hW 1) u) (herm (hZ 2) (hZ 3) (hW 2) (hW 3) u) v.
Local Ltac pp := unfold poly_p, coeff, hV, hY, hZ, hW, herm; cbn [Nat.mul Nat.add]; ring.
Lemma p_0 : poly_p (coeff d) t 0 = hV 0. Proof. pp. Qed.
Lemma p_1 : poly_p (coeff d) t 1 = hY 0. Proof. pp. Qed.
Lemma p_2 : poly_p (coeff d) t 2 = 3 * (hV 1 - hV 0) - 2 * hY 0 - hY 1. Proof. pp. Qed.
Lemma p_3 : poly_p (coeff d) t 3 = 2 * (hV 0 - hV 1) + hY 0 + hY 1. Proof. pp. Qed.
Lemma p_4 : poly_p (coeff d) t 4 = hZ 0. Proof. pp. Qed.
Lemma p_5 : poly_p (coeff d) t 5 = hW 0. Proof. pp. Qed.
Lemma p_6 : poly_p (coeff d) t 6 = 3 * (hZ 1 - hZ 0) - 2 * hW 0 - hW 1. Proof. pp. Qed.
Lemma p_7 : poly_p (coeff d) t 7 = 2 * (hZ 0 - hZ 1) + hW 0 + hW 1. Proof. pp. Qed.
Lemma p_8 : poly_p (coeff d) t 8 = 3 * (hV 2 - hV 0) - 2 * hZ 0 - hZ 2. Proof. pp. Qed.
Lemma p_9 : poly_p (coeff d) t 9 = 3 * (hY 2 - hY 0) - 2 * hW 0 - hW 2. Proof. pp. Qed.
Lemma p_10 : poly_p (coeff d) t 10 = 9 * (hV 0 - hV 1 - hV 2 + hV 3) + 6 * (hY 0 - hY 2 + hZ 0 - hZ 1) + 3 * (hY 1 - hY 3 + hZ 2 - hZ 3) + 4 * hW 0 + 2 * (hW 1 + hW 2) + hW 3. Proof. pp. Qed.
Lemma p_11 : poly_p (coeff d) t 11 = - 6 * (hV 0 - hV 1 - hV 2 + hV 3) - 4 * (hZ 0 - hZ 1) - 3 * (hY 0 + hY 1 - hY 2 - hY 3) - 2 * (hZ 2 - hZ 3 + hW 0 + hW 1) - hW 2 - hW 3. Proof. pp. Qed.
Lemma p_12 : poly_p (coeff d) t 12 = 2 * (hV 0 - hV 2) + hZ 0 + hZ 2. Proof. pp. Qed.
Lemma p_13 : poly_p (coeff d) t 13 = 2 * (hY 0 - hY 2) + hW 0 + hW 2. Proof. pp. Qed.
Lemma p_14 : poly_p (coeff d) t 14 = - 6 * (hV 0 - hV 1 - hV 2 + hV 3) - 4 * (hY 0 - hY 2) - 3 * (hZ 0 - hZ 1 + hZ 2 - hZ 3) - 2 * (hY 1 - hY 3 + hW 0 + hW 2) - hW 1 - hW 3. Proof. pp. Qed.
Lemma p_15 : poly_p (coeff d) t 15 = 4 * (hV 0 - hV 1 - hV 2 + hV 3) + 2 * (hY 0 + hY 1 - hY 2 - hY 3 + hZ 0 - hZ 1 + hZ 2 - hZ 3) + hW 0 + hW 1 + hW 2 + hW 3. Proof. pp. Qed.
Lemma polynomial_tensor : evaluate_polynomial (coeff d) t u v = tensor.
Proof.
  unfold evaluate_polynomial, poly_q. cbv zeta.
  rewrite p_0, p_1, p_2, p_3, p_4, p_5, p_6, p_7, p_8, p_9, p_10, p_11, p_12, p_13, p_14, p_15.
  unfold tensor. generalize (hV 0), (hV 1), (hV 2), (hV 3), (hY 0), (hY 1), (hY 2), (hY 3), (hZ 0), (hZ 1), (hZ 2), (hZ 3), (hW 0), (hW 1), (hW 2), (hW 3).
  intros. unfold herm. ring.
Qed.
End Poly.

Section B.
Variable b : tricubic.
Hypotheses (Hnx : (2 <= tnx b)%nat) (Hny : (2 <= tny b)%nat) (Hnz : (2 <= tnz b)%nat).
Hypotheses (Hx : increasing (tx b) (tnx b)) (Hy : increasing (ty b) (tny b)) (Hz : increasing (tz b) (tnz b)).
Notation Nx := (tnx b - 1)%nat.
Notation Ny := (tny b - 1)%nat.
Notation Nz := (tnz b - 1)%nat.
Lemma local_one xc n i : increasing xc n -> (S i < n)%nat -> (xc (S i) - xc i) / (xc (S i) - xc i) = 1.
Proof. intros H Hi. pose proof (H i Hi). field. lra. Qed.
Lemma local_zero (xc : nat -> R) i : (xc i - xc i) / (xc (S i) - xc i) = 0.
Proof. unfold Rdiv. ring. Qed.
Lemma face_x i j k y z : (S i < tnx b)%nat -> cell_eval3 b i j k (tx b (S i)) y z = cell_eval3 b (S i) j k (tx b (S i)) y z.
Proof.
  intros Hi. unfold cell_eval3. rewrite (local_one (tx b) (tnx b)) by assumption. rewrite local_zero. rewrite !polynomial_tensor.
  unfold tensor, hV, hY, hZ, hW. rewrite !herm_1, !herm_0. reflexivity.
Qed.
Lemma tensor_u0 d t v : tensor d t 0 v = herm (hV d t 0) (hV d t 2) (hZ d t 0) (hZ d t 2) v.
Proof. unfold tensor. now rewrite !herm_0. Qed.
Lemma tensor_u1 d t v : tensor d t 1 v = herm (hV d t 1) (hV d t 3) (hZ d t 1) (hZ d t 3) v.
Proof. unfold tensor. now rewrite !herm_1. Qed.
Lemma tensor_v0 d t u : tensor d t u 0 = herm (hV d t 0) (hV d t 1) (hY d t 0) (hY d t 1) u.
Proof. unfold tensor. now rewrite !herm_0. Qed.
Lemma tensor_v1 d t u : tensor d t u 1 = herm (hV d t 2) (hV d t 3) (hY d t 2) (hY d t 3) u.
Proof. unfold tensor. now rewrite !herm_1. Qed.
Lemma face_y i j k x z : (S j < tny b)%nat -> cell_eval3 b i j k x (ty b (S j)) z = cell_eval3 b i (S j) k x (ty b (S j)) z.
Proof.
  intros Hj. unfold cell_eval3. rewrite (local_one (ty b) (tny b)) by assumption. rewrite local_zero. rewrite !polynomial_tensor.
  rewrite tensor_u0, tensor_u1. unfold hV, hZ. reflexivity.
Qed.
Lemma face_z i j k x y : (S k < tnz b)%nat -> cell_eval3 b i j k x y (tz b (S k)) = cell_eval3 b i j (S k) x y (tz b (S k)).
Proof.
  intros Hk. unfold cell_eval3. rewrite (local_one (tz b) (tnz b)) by assumption. rewrite local_zero. rewrite !polynomial_tensor.
  rewrite tensor_v0, tensor_v1. unfold hV, hY. reflexivity.
Qed.
Definition tri_fun (x y z : R) : R := cell_eval3 b (cell_index (tx b) (tnx b) x) (cell_index (ty b) (tny b) y) (cell_index (tz b) (tnz b) z) x y z.
Lemma tri_total x y z : tricubic_eval b x y z = Ok (tri_fun x y z).
Proof.
  unfold tricubic_eval. destruct (Nat.eqb_spec (tnx b) 0); [lia|]. destruct (Nat.eqb_spec (tny b) 0); [lia|]. destruct (Nat.eqb_spec (tnz b) 0); [lia|]. reflexivity.
Qed.
Lemma eval_cell3 i j k x y z : (i < Nx)%nat -> (j < Ny)%nat -> (k < Nz)%nat ->
  on_piece Nx (tx b) i x -> on_piece Ny (ty b) j y -> on_piece Nz (tz b) k z -> tri_fun x y z = cell_eval3 b i j k x y z.
Proof.
  intros Hi Hj Hk Px Py Pz. unfold tri_fun.
  transitivity (cell_eval3 b i (cell_index (ty b) (tny b) y) (cell_index (tz b) (tnz b) z) x y z).
  { destruct (index_any (tx b) (tnx b) Hnx Hx i x Hi Px) as [->|(-> & Hlt & Ex)]; [reflexivity|]. rewrite Ex. symmetry. apply face_x. lia. }
  transitivity (cell_eval3 b i j (cell_index (tz b) (tnz b) z) x y z).
  { destruct (index_any (ty b) (tny b) Hny Hy j y Hj Py) as [->|(-> & Hlt & Ey)]; [reflexivity|]. rewrite Ey. symmetry. apply face_y. lia. }
  destruct (index_any (tz b) (tnz b) Hnz Hz k z Hk Pz) as [->|(-> & Hlt & Ez)]; [reflexivity|]. rewrite Ez. symmetry. apply face_z. lia.
Qed.
Lemma node_local xc n i k : increasing xc n -> (k < n - 1)%nat -> k = i \/ S k = i ->
  (xc i - xc k) / (xc (S k) - xc k) = 0 /\ i = k \/ (xc i - xc k) / (xc (S k) - xc k) = 1 /\ i = S k.
Proof. intros H Hk [->|<-]; [left; split; [apply local_zero|reflexivity]|right; split; [apply (local_one xc n); trivial; lia|reflexivity]]. Qed.
Lemma tri_nodes i j k : (i < tnx b)%nat -> (j < tny b)%nat -> (k < tnz b)%nat -> tri_fun (tx b i) (ty b j) (tz b k) = tdata b k j i.
Proof.
  intros Hi Hj Hk. destruct (node_piece (tx b) (tnx b) Hnx Hx i Hi) as (p & Hp & Pp & Ep).
  destruct (node_piece (ty b) (tny b) Hny Hy j Hj) as (q & Hq & Pq & Eq). destruct (node_piece (tz b) (tnz b) Hnz Hz k Hk) as (r & Hr & Pr & Er).
  rewrite (eval_cell3 p q r) by assumption. unfold cell_eval3. rewrite polynomial_tensor.
  destruct (node_local _ _ _ _ Hx Hp Ep) as [[-> ->]|[-> ->]]; destruct (node_local _ _ _ _ Hy Hq Eq) as [[-> ->]|[-> ->]];
    destruct (node_local _ _ _ _ Hz Hr Er) as [[-> ->]|[-> ->]]; unfold tensor, hV, hY, hZ, hW; rewrite ?herm_1, ?herm_0; rewrite ?herm_1, ?herm_0; rewrite ?herm_1, ?herm_0; reflexivity.
Qed.
Lemma tri_continuous x y z : cont3 tri_fun x y z.
Proof.
  revert x y z. apply (cells3_continuous tri_fun Nx Ny Nz (tx b) (ty b) (tz b) (cell_eval3 b)); try lia.
  - intros i H. apply Hx. lia.
  - intros i H. apply Hy. lia.
  - intros i H. apply Hz. lia.
  - intros. now apply eval_cell3.
  - intros i j k x y z _ _ _ e He.
    assert (C : cont3 (fun x y z => tensor (collect b i j k (tx b (S i) - tx b i) (ty b (S j) - ty b j) (tz b (S k) - tz b k))
      ((x - tx b i) / (tx b (S i) - tx b i)) ((y - ty b j) / (ty b (S j) - ty b j)) ((z - tz b k) / (tz b (S k) - tz b k))) x y z).
    { unfold tensor, hV, hY, hZ, hW. repeat (apply cont3_herm || apply cont3_const); unfold Rdiv, Rminus;
      repeat first [apply cont3_const | apply cont3_1 | apply cont3_2 | apply cont3_3 | apply cont3_plus | apply cont3_mult | apply cont3_opp]. }
    destruct (C e He) as (d & Hd & Hq). exists d. split; [exact Hd|]. intros a b' c Ha Hb Hc. unfold cell_eval3. rewrite !polynomial_tensor. now apply Hq.
Qed.
End B.

(** *** The constructor *)
Lemma sweep_ok x n f A B : forall a, (3 <= n)%nat -> increasing x n ->
  sweep x n f a A B = Ok (map (fun p => map (fun q => map (node_slope x (f p q) n) (seq 0 n)) (seq 0 B)) (seq a A)).
Proof. induction A as [|A IH]; intros a Hn Hi; cbn; [reflexivity|]. rewrite all_slopes_ok by assumption. cbn. rewrite IH by assumption. reflexivity. Qed.
Lemma look3_map (F : nat -> nat -> nat -> R) A B n p q c : (p < A)%nat -> (q < B)%nat -> (c < n)%nat ->
  look3 (map (fun p => map (fun q => map (F p q) (seq 0 n)) (seq 0 B)) (seq 0 A)) p q c = F p q c.
Proof.
  intros Hp Hq Hc. unfold look3. set (h := fun p => map (fun q => map (F p q) (seq 0 n)) (seq 0 B)).
  rewrite (nth_indep _ [] (h O)) by (rewrite map_length, seq_length; lia). rewrite map_nth, seq_nth by lia. cbn [Nat.add]. unfold h. now apply look_map.
Qed.
Lemma all_slopes_total x n f k : forall i, is_ok (all_slopes x n f i k) \/ all_slopes x n f i k = Throw RuntimeError.
Proof.
  induction k as [|k IH]; intros i; cbn; [left; now eexists|].
  destruct (Classical_Prop.classic ((3 <= n)%nat /\ increasing x n)) as [[Hn Hi]|Hb].
  - rewrite slopes_ok by assumption. cbn. destruct (IH (S i)) as [[l Hl]|Hl]; rewrite Hl; cbn; [left; now eexists|now right].
  - rewrite slopes_bad by assumption. now right.
Qed.
Lemma sweep_total x n f A B : forall a, is_ok (sweep x n f a A B) \/ sweep x n f a A B = Throw RuntimeError.
Proof.
  induction A as [|A IH]; intros a; cbn; [left; now eexists|].
  destruct (all_slopes_total x n (f a) B 0) as [[l Hl]|Hl]; rewrite Hl; cbn; [|now right].
  destruct (IH (S a)) as [[r Hr]|Hr]; rewrite Hr; cbn; [left; now eexists|now right].
Qed.
Lemma sweep_good x n f A B a : (0 < A)%nat -> (0 < B)%nat -> is_ok (sweep x n f a A B) -> (3 <= n)%nat /\ increasing x n.
Proof.
  intros HA HB [l Hl]. destruct (Classical_Prop.classic ((3 <= n)%nat /\ increasing x n)) as [H|Hb]; [exact H|].
  destruct A as [|A]; [lia|]. cbn in Hl. rewrite all_slopes_bad in Hl by assumption. discriminate.
Qed.

Section Make.
Variables (data : nat -> nat -> nat -> R) (nz ny nx : nat) (xc yc zc : nat -> R).
Hypotheses (Hnx : (3 <= nx)%nat) (Hny : (3 <= ny)%nat) (Hnz : (3 <= nz)%nat).
Hypotheses (Hx : increasing xc nx) (Hy : increasing yc ny) (Hz : increasing zc nz).
Lemma tri_make_ok : (ny <= nx)%nat ->
  exists b, tricubic_make data nz ny nx xc nx yc ny zc nz = Ok b /\ tdata b = data /\ tnx b = nx /\ tny b = ny /\ tnz b = nz /\ tx b = xc /\ ty b = yc /\ tz b = zc /\
  forall k j i, (k < nz)%nat -> (j < ny)%nat -> (i < nx)%nat ->
    tdx b k j i = node_slope xc (fun i => data k j i) nx i /\
    tdy b k j i = node_slope yc (fun j => data k j i) ny j /\
    tdz b k j i = node_slope zc (fun k => data k j i) nz k /\
    tdxy b k j i = node_slope xc (fun i => tdy b k j i) nx i /\
    tdxz b k j i = node_slope xc (fun i => tdz b k j i) nx i /\
    tdyz b k j i = tdxz b (nz - 1)%nat (ny - 1)%nat j /\
    tdxyz b k j i = node_slope xc (fun i => tdyz b k j i) nx i.
Proof.
  intros Hle. unfold tricubic_make. rewrite !Nat.eqb_refl. cbn [negb].
  rewrite ?sweep_ok by assumption. cbn [obind]. rewrite ?sweep_ok by assumption. cbn [obind]. rewrite ?sweep_ok by assumption. cbn [obind].
  rewrite ?sweep_ok by assumption. cbn [obind]. rewrite ?sweep_ok by assumption. cbn [obind]. rewrite ?sweep_ok by assumption. cbn [obind].
  destruct (Nat.ltb_spec nx ny); [lia|]. rewrite !andb_false_r. rewrite ?sweep_ok by assumption. cbn [obind].
  eexists. split; [reflexivity|]. cbn [tdata tnx tny tnz tx ty tz tdx tdy tdz tdxy tdxz tdyz tdxyz]. repeat (split; [reflexivity|]).
  intros k j i Hk Hj Hi.
  rewrite (look3_map (fun p q => node_slope xc (data p q) nx)) by assumption.
  rewrite (look3_map (fun p q => node_slope yc (fun j => data p j q) ny)) by assumption.
  rewrite (look3_map (fun p q => node_slope zc (fun k => data k p q) nz)) by assumption.
  repeat (split; [reflexivity|]). 
  rewrite (look3_map (fun p q => node_slope xc (fun i => look3 (map (fun p => map (fun q => map (node_slope yc (fun j => data p j q) ny) (seq 0 ny)) (seq 0 nx)) (seq 0 nz)) p i q) nx)) by assumption.
  rewrite (look3_map (fun p q => node_slope xc (fun i => look3 (map (fun p => map (fun q => map (node_slope zc (fun k => data k p q) nz) (seq 0 nz)) (seq 0 nx)) (seq 0 ny)) q i p) nx)) by assumption.
  repeat (split; [reflexivity|]).
  rewrite (look3_map (fun p q => node_slope xc (fun i => look3 (map (fun p => map (fun q => map (node_slope xc (fun i => look3 (map (fun p => map (fun q => map (node_slope zc (fun k => data k p q) nz) (seq 0 nz)) (seq 0 nx)) (seq 0 ny)) q i p) nx) (seq 0 nx)) (seq 0 ny)) (seq 0 nz)) (nz - 1) (ny - 1) q) nx)) by assumption.
  reflexivity.
Qed.
Lemma tri_make_tall : (nx < ny)%nat -> tricubic_make data nz ny nx xc nx yc ny zc nz = UB.
Proof.
  intros Hlt. unfold tricubic_make. rewrite !Nat.eqb_refl. cbn [negb].
  rewrite ?sweep_ok by assumption. cbn [obind]. rewrite ?sweep_ok by assumption. cbn [obind]. rewrite ?sweep_ok by assumption. cbn [obind].
  rewrite ?sweep_ok by assumption. cbn [obind]. rewrite ?sweep_ok by assumption. cbn [obind]. rewrite ?sweep_ok by assumption. cbn [obind].
  destruct (Nat.ltb_spec nx ny); [|lia]. destruct (Nat.eqb_spec nz 0); [lia|]. destruct (Nat.eqb_spec nx 0); [lia|]. reflexivity.
Qed.
End Make.
Lemma tri_make_refuses data ez ey ex xc nx yc ny zc nz : (0 < ex)%nat -> (0 < ey)%nat -> (0 < ez)%nat ->
  ~ (nx = ex /\ ny = ey /\ nz = ez /\ (3 <= ex)%nat /\ (3 <= ey)%nat /\ (3 <= ez)%nat /\ increasing xc ex /\ increasing yc ey /\ increasing zc ez) ->
  tricubic_make data ez ey ex xc nx yc ny zc nz = Throw RuntimeError.
Proof.
  intros Hex Hey Hez H. unfold tricubic_make.
  destruct (Nat.eqb_spec nx ex) as [->|]; cbn [negb]; [|reflexivity]. destruct (Nat.eqb_spec ny ey) as [->|]; cbn [negb]; [|reflexivity].
  destruct (Nat.eqb_spec nz ez) as [->|]; cbn [negb]; [|reflexivity].
  match goal with |- obind ?s _ = _ => destruct (sweep_total xc ex (fun k j i => data k j i) ez ey 0) as [[l1 E1]|E1]; rewrite E1; cbn [obind]; [|reflexivity] end.
  match goal with |- obind ?s _ = _ => destruct (sweep_total yc ey (fun k i j => data k j i) ez ex 0) as [[l2 E2]|E2]; rewrite E2; cbn [obind]; [|reflexivity] end.
  match goal with |- obind ?s _ = _ => destruct (sweep_total zc ez (fun j i k => data k j i) ey ex 0) as [[l3 E3]|E3]; rewrite E3; cbn [obind]; [|reflexivity] end.
  exfalso. apply H. pose proof (sweep_good _ _ _ _ _ _ Hez Hey (ex_intro _ _ E1)). pose proof (sweep_good _ _ _ _ _ _ Hez Hex (ex_intro _ _ E2)).
  pose proof (sweep_good _ _ _ _ _ _ Hey Hex (ex_intro _ _ E3)). tauto.
Qed.

Lemma node_slope_line x y n a b i : (3 <= n)%nat -> increasing x n -> (forall i, (i < n)%nat -> y i = a + b * x i) -> (i < n)%nat -> node_slope x y n i = b.
Proof.
  intros Hn Hi Hy Hlt. unfold node_slope, tR, tL. pose proof (line_m x y n a b Hn Hi Hy) as Hm.
  destruct (Nat.ltb_spec i (n - 1)); rewrite !Hm by lia; now apply slope_const.
Qed.
