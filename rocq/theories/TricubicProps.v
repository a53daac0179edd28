(** Property C18 (tricubic interpolation). *)
From Coq Require Import List Arith ZArith Reals Lra Lia Classical_Prop.
From Verif Require Import Err AkimaModel PiecewiseProofs AkimaProofs BicubicModel BicubicProofs TricubicModel TricubicProofs AkimaBicubicProps.
Import ListNotations.
Local Open Scope R_scope.

(** Grids meeting the documented requirements, with at least three coordinates per axis. *)
Definition good_grid3 (ez ey ex : nat) xc nx yc ny zc nz : Prop :=
  nx = ex /\ ny = ey /\ nz = ez /\ (3 <= ex)%nat /\ (3 <= ey)%nat /\ (3 <= ez)%nat /\
  strictly_increasing xc ex /\ strictly_increasing yc ey /\ strictly_increasing zc ez.

(** Grids that do not meet them are refused; the others are accepted if there are no more y than x coordinates. *)
Theorem c18_constructor_partial : forall data ez ey ex xc nx yc ny zc nz, (0 < ez)%nat -> (0 < ey)%nat -> (0 < ex)%nat ->
  (good_grid3 ez ey ex xc nx yc ny zc nz -> (ny <= nx)%nat -> exists b, tricubic_make data ez ey ex xc nx yc ny zc nz = Ok b) /\
  (~ good_grid3 ez ey ex xc nx yc ny zc nz -> tricubic_make data ez ey ex xc nx yc ny zc nz = Throw RuntimeError).
Proof.
  intros data ez ey ex xc nx yc ny zc nz Hz Hy Hx. unfold good_grid3. rewrite !strictly_iff. split.
  - intros (-> & -> & -> & H1 & H2 & H3 & H4 & H5 & H6) Hle. destruct (tri_make_ok data ez ey ex xc yc zc) as (b & Hb & _); trivial. now exists b.
  - intros H. now apply tri_make_refuses.
Qed.
(** With more y than x coordinates a perfectly good grid makes the constructor read beyond the end of an array. *)
Theorem c18_tall_refuted : forall data ez ey ex xc nx yc ny zc nz, good_grid3 ez ey ex xc nx yc ny zc nz -> (nx < ny)%nat ->
  tricubic_make data ez ey ex xc nx yc ny zc nz = UB.
Proof.
  intros data ez ey ex xc nx yc ny zc nz H Hlt. unfold good_grid3 in H. rewrite !strictly_iff in H.
  destruct H as (-> & -> & -> & H1 & H2 & H3 & H4 & H5 & H6). now apply tri_make_tall.
Qed.
Lemma tri_inv data ez ey ex xc nx yc ny zc nz b : (0 < ez)%nat -> (0 < ey)%nat -> (0 < ex)%nat -> tricubic_make data ez ey ex xc nx yc ny zc nz = Ok b ->
  ((2 <= tnx b)%nat /\ (2 <= tny b)%nat /\ (2 <= tnz b)%nat) /\ (increasing (tx b) (tnx b) /\ increasing (ty b) (tny b) /\ increasing (tz b) (tnz b)) /\
  tdata b = data /\ tnx b = ex /\ tny b = ey /\ tnz b = ez /\ tx b = xc /\ ty b = yc /\ tz b = zc.
Proof.
  intros Hz Hy Hx H. destruct (classic (good_grid3 ez ey ex xc nx yc ny zc nz)) as [Hg|Hg].
  - destruct (le_lt_dec ny nx) as [Hle|Hlt]; [|rewrite (c18_tall_refuted _ _ _ _ _ _ _ _ _ _ Hg Hlt) in H; discriminate].
    unfold good_grid3 in Hg. rewrite !strictly_iff in Hg. destruct Hg as (-> & -> & -> & H1 & H2 & H3 & H4 & H5 & H6).
    destruct (tri_make_ok data ez ey ex xc yc zc H1 H2 H3 H4 H5 H6 Hle) as (b' & Hb & E0 & E1 & E2 & E3 & E4 & E5 & E6 & _). rewrite Hb in H. injection H as <-.
    rewrite E0, E1, E2, E3, E4, E5, E6. repeat split; trivial; lia.
  - rewrite (proj2 (c18_constructor_partial data ez ey ex xc nx yc ny zc nz Hz Hy Hx) Hg) in H. discriminate.
Qed.
Theorem c18_nodes : forall data ez ey ex xc nx yc ny zc nz b i j k, tricubic_make data ez ey ex xc nx yc ny zc nz = Ok b ->
  (i < ex)%nat -> (j < ey)%nat -> (k < ez)%nat -> tricubic_eval b (xc i) (yc j) (zc k) = Ok (data k j i).
Proof.
  intros data ez ey ex xc nx yc ny zc nz b i j k H Hi Hj Hk.
  destruct (tri_inv data ez ey ex xc nx yc ny zc nz b ltac:(lia) ltac:(lia) ltac:(lia) H) as ((H1 & H2 & H3) & (H4 & H5 & H6) & <- & <- & <- & <- & <- & <- & <-).
  rewrite tri_total by assumption. f_equal. now apply tri_nodes.
Qed.
(** Evaluation succeeds everywhere and is continuous in the three variables together, cell faces and the extrapolated region included. *)
Theorem c18_continuous : forall data ez ey ex xc nx yc ny zc nz b, (0 < ez)%nat -> (0 < ey)%nat -> (0 < ex)%nat -> tricubic_make data ez ey ex xc nx yc ny zc nz = Ok b ->
  exists f, (forall x y z, tricubic_eval b x y z = Ok (f x y z)) /\
  forall x y z e, 0 < e -> exists d, 0 < d /\ forall p q r, Rabs (p - x) < d -> Rabs (q - y) < d -> Rabs (r - z) < d -> Rabs (f p q r - f x y z) < e.
Proof.
  intros data ez ey ex xc nx yc ny zc nz b Hz Hy Hx H. destruct (tri_inv _ _ _ _ _ _ _ _ _ _ _ Hz Hy Hx H) as ((H1 & H2 & H3) & (H4 & H5 & H6) & _).
  exists (tri_fun b). split; [intros; now apply tri_total|]. exact (tri_continuous b H1 H2 H3 H4 H5 H6).
Qed.
(** Only tables without an axis must not be asked. *)
Theorem c18_no_table : forall b x y z, tricubic_eval b x y z = UB <-> tnx b = 0%nat \/ tny b = 0%nat \/ tnz b = 0%nat.
Proof.
  intros b x y z. unfold tricubic_eval. destruct (Nat.eqb_spec (tnx b) 0), (Nat.eqb_spec (tny b) 0), (Nat.eqb_spec (tnz b) 0); cbn [orb]; split; intro H;
    try discriminate H; try reflexivity; try tauto; lia.
Qed.
Print Assumptions c18_no_table.
(** The (y,z) derivatives are not taken along y. For the table of the product yz they should all be 1, and are all 0, *)
Theorem c18_dydz_refuted : forall ez ey ex xc nx yc ny zc nz b, tricubic_make (fun k j _ => yc j * zc k) ez ey ex xc nx yc ny zc nz = Ok b ->
  forall i j k, (i < ex)%nat -> (j < ey)%nat -> (k < ez)%nat ->
  tdz b k j i = yc j /\ (forall d, slopes yc (fun j => tdz b k j i) ny = Ok d -> nth j d 0 = 1) /\ tdyz b k j i = 0.
Proof.
  intros ez ey ex xc nx yc ny zc nz b H i j k Hi Hj Hk.
  destruct (classic (good_grid3 ez ey ex xc nx yc ny zc nz)) as [Hg|Hg];
    [|rewrite (proj2 (c18_constructor_partial _ ez ey ex xc nx yc ny zc nz ltac:(lia) ltac:(lia) ltac:(lia)) Hg) in H; discriminate].
  destruct (le_lt_dec ny nx) as [Hle|Hlt]; [|rewrite (c18_tall_refuted _ _ _ _ _ _ _ _ _ _ Hg Hlt) in H; discriminate].
  unfold good_grid3 in Hg. rewrite !strictly_iff in Hg. destruct Hg as (-> & -> & -> & H1 & H2 & H3 & H4 & H5 & H6).
  destruct (tri_make_ok (fun k j _ => yc j * zc k) ez ey ex xc yc zc H1 H2 H3 H4 H5 H6 Hle) as (b' & Hb & E0 & E1 & E2 & E3 & E4 & E5 & E6 & Hd). rewrite Hb in H. injection H as <-.
  assert (Ez : forall k j i, (k < ez)%nat -> (j < ey)%nat -> (i < ex)%nat -> tdz b' k j i = yc j).
  { intros k' j' i' Hk' Hj' Hi'. destruct (Hd k' j' i' Hk' Hj' Hi') as (_ & _ & -> & _). apply node_slope_line with (a := 0); trivial. intros; ring. }
  split; [now apply Ez|]. split.
  - intros d Hs. rewrite slopes_ok in Hs by assumption. injection Hs as <-.
    rewrite (nth_indep _ 0 (node_slope yc (fun j => tdz b' k j i) ey O)) by (rewrite map_length, seq_length; lia). rewrite map_nth, seq_nth by lia. cbn [Nat.add].
    apply node_slope_line with (a := 0); trivial. intros j' Hj'. rewrite Ez by lia. ring.
  - destruct (Hd k j i Hk Hj Hi) as (_ & _ & _ & _ & _ & -> & _).
    destruct (Hd (ez - 1)%nat (ey - 1)%nat j ltac:(lia) ltac:(lia) ltac:(lia)) as (_ & _ & _ & _ & -> & _).
    apply node_slope_line with (a := yc (ey - 1)%nat); trivial; [|lia]. intros i' Hi'. rewrite Ez by lia. ring.
Qed.
(** so that the interpolant of the product yz, which cubics represent exactly, is wrong inside every cell: at a quarter of its sides by 9/1024 of their product. *)
Theorem c18_product_refuted : forall ez ey ex xc nx yc ny zc nz b, tricubic_make (fun k j _ => yc j * zc k) ez ey ex xc nx yc ny zc nz = Ok b ->
  forall i j k, (S i < ex)%nat -> (S j < ey)%nat -> (S k < ez)%nat ->
  let y := yc j + (yc (S j) - yc j) / 4 in let z := zc k + (zc (S k) - zc k) / 4 in
  tricubic_eval b (xc i) y z = Ok (y * z - 9 / 1024 * (yc (S j) - yc j) * (zc (S k) - zc k)).
Proof.
  intros ez ey ex xc nx yc ny zc nz b H i j k Hi Hj Hk y z.
  pose proof (c18_dydz_refuted _ _ _ _ _ _ _ _ _ _ H) as Hyz.
  destruct (classic (good_grid3 ez ey ex xc nx yc ny zc nz)) as [Hg|Hg];
    [|rewrite (proj2 (c18_constructor_partial _ ez ey ex xc nx yc ny zc nz ltac:(lia) ltac:(lia) ltac:(lia)) Hg) in H; discriminate].
  destruct (le_lt_dec ny nx) as [Hle|Hlt]; [|rewrite (c18_tall_refuted _ _ _ _ _ _ _ _ _ _ Hg Hlt) in H; discriminate].
  unfold good_grid3 in Hg. rewrite !strictly_iff in Hg. destruct Hg as (-> & -> & -> & H1 & H2 & H3 & H4 & H5 & H6).
  destruct (tri_make_ok (fun k j _ => yc j * zc k) ez ey ex xc yc zc H1 H2 H3 H4 H5 H6 Hle) as (b' & Hb & E0 & E1 & E2 & E3 & E4 & E5 & E6 & Hd). rewrite Hb in H. injection H as <-.
  assert (Ey : forall k j i, (k < ez)%nat -> (j < ey)%nat -> (i < ex)%nat -> tdy b' k j i = zc k).
  { intros k' j' i' Hk' Hj' Hi'. destruct (Hd k' j' i' Hk' Hj' Hi') as (_ & -> & _). apply node_slope_line with (a := 0); trivial. intros; ring. }
  pose proof (H4 i Hi) as Ix. pose proof (H5 j Hj) as Iy. pose proof (H6 k Hk) as Iz.
  rewrite tri_total by (rewrite ?E1, ?E2, ?E3; lia). f_equal.
  assert (Ox : on_piece (tnx b' - 1) (tx b') i (xc i)) by (rewrite E1, E4; split; [right; lra|right; lra]).
  assert (Oy : on_piece (tny b' - 1) (ty b') j y) by (rewrite E2, E5; unfold y; split; right; lra).
  assert (Oz : on_piece (tnz b' - 1) (tz b') k z) by (rewrite E3, E6; unfold z; split; right; lra).
  rewrite (eval_cell3 b') with (i := i) (j := j) (k := k); rewrite ?E1, ?E2, ?E3, ?E4, ?E5, ?E6 in *; trivial; try lia.
  unfold cell_eval3. rewrite polynomial_tensor, E4, E5, E6.
  replace ((xc i - xc i) / (xc (S i) - xc i)) with 0 by (unfold Rdiv; ring).
  replace ((y - yc j) / (yc (S j) - yc j)) with (/ 4) by (unfold y; field; lra).
  replace ((z - zc k) / (zc (S k) - zc k)) with (/ 4) by (unfold z; field; lra).
  unfold tensor, hV, hY, hZ, hW. rewrite !herm_0. cbn [Nat.mul Nat.add]. unfold collect. rewrite E0.
  rewrite !Ey by lia.
  rewrite (proj1 (Hyz i j k ltac:(lia) ltac:(lia) ltac:(lia))), (proj1 (Hyz i (S j) k ltac:(lia) ltac:(lia) ltac:(lia))).
  rewrite (proj1 (Hyz i j (S k) ltac:(lia) ltac:(lia) ltac:(lia))), (proj1 (Hyz i (S j) (S k) ltac:(lia) ltac:(lia) ltac:(lia))).
  rewrite (proj2 (proj2 (Hyz i j k ltac:(lia) ltac:(lia) ltac:(lia)))), (proj2 (proj2 (Hyz i (S j) k ltac:(lia) ltac:(lia) ltac:(lia)))).
  rewrite (proj2 (proj2 (Hyz i j (S k) ltac:(lia) ltac:(lia) ltac:(lia)))), (proj2 (proj2 (Hyz i (S j) (S k) ltac:(lia) ltac:(lia) ltac:(lia)))).
  unfold herm, y, z. field.
Qed.
Example c18_nonvacuous : good_grid3 3 3 4 INR 4 INR 3 INR 3 /\ good_grid3 3 4 3 INR 3 INR 4 INR 3.
Proof. split; unfold good_grid3, strictly_increasing; repeat split; try lia; intros i j H _; apply lt_INR; lia. Qed.
Print Assumptions c18_constructor_partial.
Print Assumptions c18_tall_refuted.
Print Assumptions c18_nodes.
Print Assumptions c18_continuous.
Print Assumptions c18_dydz_refuted.
Print Assumptions c18_product_refuted.
