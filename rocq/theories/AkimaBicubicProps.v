(** Properties C16 (Akima splines) and C17 (bicubic interpolation). *)
From Coq Require Import List Arith ZArith Reals Lra Lia Classical_Prop.
From Verif Require Import Err AkimaModel PiecewiseProofs AkimaProofs BicubicModel BicubicProofs.
Import ListNotations.
Local Open Scope R_scope.

Definition strictly_increasing (x : nat -> R) (n : nat) : Prop := forall i j, (i < j)%nat -> (j < n)%nat -> x i < x j.
Lemma strictly_iff x n : strictly_increasing x n <-> increasing x n.
Proof.
  split; [intros H j Hj; apply H; lia|]. intros H i j Hij. induction Hij as [|j Hij IH]; intros Hj; [apply H; lia|].
  apply Rlt_trans with (x j); [apply IH; lia|apply H; lia].
Qed.
Lemma akima_inv x y n s : akima x y n = Ok s -> (3 <= n)%nat /\ increasing x n /\ s = the_spline x y n.
Proof.
  intros H. destruct (classic ((3 <= n)%nat /\ increasing x n)) as [[Hn Hi]|Hb]; [|rewrite akima_refuses in H by exact Hb; discriminate].
  rewrite akima_ok in H by assumption. repeat split; trivial. congruence.
Qed.

(** ** C16 *)
(** Which tables are accepted; the others are refused with std::runtime_error. *)
Theorem c16_constructor : forall x y n,
  ((3 <= n)%nat /\ strictly_increasing x n -> exists s, akima x y n = Ok s) /\
  (~ ((3 <= n)%nat /\ strictly_increasing x n) -> akima x y n = Throw RuntimeError).
Proof.
  intros x y n. rewrite strictly_iff. split; [intros [Hn Hi]; eexists; now apply akima_ok|apply akima_refuses].
Qed.
Theorem c16_nodes : forall x y n s i, akima x y n = Ok s -> (i < n)%nat -> spline_eval s (x i) = Ok (y i).
Proof. intros x y n s i H Hlt. destruct (akima_inv _ _ _ _ H) as (Hn & Hi & ->). now apply spline_nodes. Qed.
(** Straight lines are reproduced everywhere, also outside the table. *)
Theorem c16_line : forall x y n s a b t, akima x y n = Ok s -> (forall i, (i < n)%nat -> y i = a + b * x i) -> spline_eval s t = Ok (a + b * t).
Proof. intros x y n s a b t H Hy. destruct (akima_inv _ _ _ _ H) as (Hn & Hi & ->). now apply spline_line. Qed.
(** Evaluation never fails, and is continuous on the whole line. *)
Theorem c16_continuous : forall x y n s, akima x y n = Ok s -> exists f, (forall t, spline_eval s t = Ok (f t)) /\ forall t, continuity_pt f t.
Proof.
  intros x y n s H. destruct (akima_inv _ _ _ _ H) as (Hn & Hi & ->). exists (spline_fun x y n).
  split; [intros t; now apply eval_total|now apply spline_continuous].
Qed.
(** Continuously differentiable if no interior node has a straight run on each side (the two secants before it equal, and the two after it equal). *)
Theorem c16_C1_partial : forall x y n s, akima x y n = Ok s ->
  (forall i, (0 < i < n - 1)%nat -> ~ (m x y n (Z.of_nat i - 2) = m x y n (Z.of_nat i - 1) /\ m x y n (Z.of_nat i) = m x y n (Z.of_nat i + 1))) ->
  exists f D, (forall t, spline_eval s t = Ok (f t)) /\ (forall t, derivable_pt_lim f t (D t)) /\ (forall t, continuity_pt D t).
Proof.
  intros x y n s H Hs. destruct (akima_inv _ _ _ _ H) as (Hn & Hi & ->).
  assert (Hsm : forall i, (0 < i < n - 1)%nat -> smooth_node x y n i).
  { intros i Hr. unfold smooth_node, NEw, Lw. pose proof (Hs i Hr) as Hne.
    pose proof (Rabs_pos (m x y n (Z.of_nat i - 2) - m x y n (Z.of_nat i - 1))). pose proof (Rabs_pos (m x y n (Z.of_nat i) - m x y n (Z.of_nat i + 1))).
    destruct (Req_dec (m x y n (Z.of_nat i - 2)) (m x y n (Z.of_nat i - 1))) as [E1|E1].
    - destruct (Req_dec (m x y n (Z.of_nat i)) (m x y n (Z.of_nat i + 1))) as [E2|E2]; [tauto|].
      assert (0 < Rabs (m x y n (Z.of_nat i) - m x y n (Z.of_nat i + 1))) by (apply Rabs_pos_lt; lra). lra.
    - assert (0 < Rabs (m x y n (Z.of_nat i - 2) - m x y n (Z.of_nat i - 1))) by (apply Rabs_pos_lt; lra). lra. }
  set (D := fun t => seg_deriv (seg_at x y n (cell_index x n t)) t).
  assert (HD : forall t, derivable_pt_lim (spline_fun x y n) t (D t)).
  { intros t. destruct (cell_index_spec x n t ltac:(lia) Hi) as (Hj & H1 & H2).
    apply spline_derivative; auto. split; [exact H1|]. destruct H2; [now left|right; lra]. }
  exists (spline_fun x y n), D. split; [intros t; now apply eval_total|]. split; [exact HD|]. now apply (spline_C1 x y n).
Qed.
Lemma derivative_left f g b d l l' : 0 < d -> (forall t, b - d < t <= b -> f t = g t) -> derivable_pt_lim f b l -> derivable_pt_lim g b l' -> l = l'.
Proof.
  intros Hd Hfg Hf Hg. apply cond_eq. intros e He. destruct (Hf (e / 2) ltac:(lra)) as [d1 H1]. destruct (Hg (e / 2) ltac:(lra)) as [d2 H2].
  pose proof (cond_pos d1). pose proof (cond_pos d2).
  set (h := - (Rmin d (Rmin d1 d2) / 2)).
  assert (Hm : 0 < Rmin d (Rmin d1 d2)) by (repeat apply Rmin_glb_lt; assumption).
  pose proof (Rmin_l d (Rmin d1 d2)). pose proof (Rmin_r d (Rmin d1 d2)). pose proof (Rmin_l d1 d2). pose proof (Rmin_r d1 d2).
  assert (Hh : h < 0) by (unfold h; lra). assert (Hab : Rabs h = Rmin d (Rmin d1 d2) / 2) by (rewrite Rabs_left by exact Hh; unfold h; lra).
  specialize (H1 h ltac:(lra) ltac:(rewrite Hab; lra)). specialize (H2 h ltac:(lra) ltac:(rewrite Hab; lra)).
  rewrite !Hfg in H1 by (unfold h; lra). set (q := (g (b + h) - g b) / h) in *.
  apply Rabs_def2 in H1. apply Rabs_def2 in H2. apply Rabs_def1; lra.
Qed.
Lemma derivative_right f g b d l l' : 0 < d -> (forall t, b <= t < b + d -> f t = g t) -> derivable_pt_lim f b l -> derivable_pt_lim g b l' -> l = l'.
Proof.
  intros Hd Hfg Hf Hg. apply cond_eq. intros e He. destruct (Hf (e / 2) ltac:(lra)) as [d1 H1]. destruct (Hg (e / 2) ltac:(lra)) as [d2 H2].
  pose proof (cond_pos d1). pose proof (cond_pos d2).
  set (h := Rmin d (Rmin d1 d2) / 2).
  assert (Hm : 0 < Rmin d (Rmin d1 d2)) by (repeat apply Rmin_glb_lt; assumption).
  pose proof (Rmin_l d (Rmin d1 d2)). pose proof (Rmin_r d (Rmin d1 d2)). pose proof (Rmin_l d1 d2). pose proof (Rmin_r d1 d2).
  assert (Hh : 0 < h) by (unfold h; lra). assert (Hab : Rabs h = Rmin d (Rmin d1 d2) / 2) by (rewrite Rabs_right by lra; reflexivity).
  specialize (H1 h ltac:(lra) ltac:(rewrite Hab; lra)). specialize (H2 h ltac:(lra) ltac:(rewrite Hab; lra)).
  rewrite !Hfg in H1 by (unfold h; lra). set (q := (g (b + h) - g b) / h) in *.
  apply Rabs_def2 in H1. apply Rabs_def2 in H2. apply Rabs_def1; lra.
Qed.
(** At an interior node with a straight run on each side the two slopes are the secants': unless these agree there is no derivative. *)
Theorem c16_kink_refuted : forall x y n s i f, akima x y n = Ok s -> (0 < i < n - 1)%nat -> (forall t, spline_eval s t = Ok (f t)) ->
  m x y n (Z.of_nat i - 2) = m x y n (Z.of_nat i - 1) -> m x y n (Z.of_nat i) = m x y n (Z.of_nat i + 1) ->
  m x y n (Z.of_nat i - 1) <> m x y n (Z.of_nat i) -> forall l, ~ derivable_pt_lim f (x i) l.
Proof.
  intros x y n s i f H Hr Hf E1 E2 Hne l Hl. destruct (akima_inv _ _ _ _ H) as (Hn & Hi & ->).
  destruct i as [|i]; [lia|]. pose proof (Hi i ltac:(lia)) as Hx1. pose proof (Hi (S i) ltac:(lia)) as Hx2.
  assert (Hfl : forall t, x (S i) - (x (S i) - x i) < t <= x (S i) -> f t = seg_eval (seg_at x y n i) t).
  { intros t Ht. pose proof (eval_piece x y n t i Hn Hi ltac:(lia)) as Hp. rewrite Hf in Hp.
    assert (Hq : on_piece (n - 1) x i t) by (split; right; lra). specialize (Hp Hq). congruence. }
  assert (Hfr : forall t, x (S i) <= t < x (S i) + (x (S (S i)) - x (S i)) -> f t = seg_eval (seg_at x y n (S i)) t).
  { intros t Ht. pose proof (eval_piece x y n t (S i) Hn Hi ltac:(lia)) as Hp. rewrite Hf in Hp.
    assert (Hq : on_piece (n - 1) x (S i) t) by (split; right; lra). specialize (Hp Hq). congruence. }
  pose proof (derivative_left f _ _ (x (S i) - x i) _ _ ltac:(lra) Hfl Hl (seg_derivable _ _)) as HL.
  pose proof (derivative_right f _ _ (x (S (S i)) - x (S i)) _ _ ltac:(lra) Hfr Hl (seg_derivable _ _)) as HR.
  rewrite seg_deriv_right in HL by exact Hx1. rewrite seg_deriv_left in HR.
  replace (Z.of_nat i + 1)%Z with (Z.of_nat (S i)) in HL by lia.
  assert (Hk : ~ smooth_node x y n (S i)).
  { unfold smooth_node, NEw, Lw. rewrite E1, E2. rewrite !Rminus_diag_eq by reflexivity. rewrite Rabs_R0. lra. }
  destruct (kink x y n (S i) Hk) as [K1 K2]. congruence.
Qed.
(** The accessors return the table. *)
Theorem c16_accessors : forall x y n s, akima x y n = Ok s -> abscissas s = map x (seq 0 n) /\ ordinates s = map y (seq 0 n) /\
  exists d, derivatives s = Ok d /\ length d = n.
Proof.
  intros x y n s H. destruct (akima_inv _ _ _ _ H) as (Hn & Hi & ->). repeat split; [now apply abscissas_ok|now apply ordinates_ok|].
  eexists. split; [now apply derivatives_ok|]. now rewrite map_length, seq_length.
Qed.
(** The derivative accessor gives the derivative of the interpolant at each node where it has one. *)
Theorem c16_derivatives : forall x y n s d f i l, akima x y n = Ok s -> derivatives s = Ok d -> (forall t, spline_eval s t = Ok (f t)) -> (i < n)%nat ->
  derivable_pt_lim f (x i) l -> nth i d 0 = l.
Proof.
  intros x y n s d f i l H Hd Hf Hlt Hl. destruct (akima_inv _ _ _ _ H) as (Hn & Hi & ->). rewrite derivatives_ok in Hd by assumption.
  injection Hd as <-. rewrite (nth_indep _ 0 (node_slope x y n O)) by (rewrite map_length, seq_length; lia). rewrite map_nth, seq_nth by lia. cbn [Nat.add].
  unfold node_slope. destruct (Nat.ltb_spec i (n - 1)) as [Hs|Hs].
  - rewrite <- (seg_deriv_left x y n i). pose proof (Hi i ltac:(lia)) as Hx. symmetry.
    refine (derivative_right f (seg_eval (seg_at x y n i)) (x i) (x (S i) - x i) _ _ ltac:(lra) _ Hl (seg_derivable _ _)).
    intros t Ht. pose proof (eval_piece x y n t i Hn Hi ltac:(lia)) as Hp. rewrite Hf in Hp.
    assert (Hq : on_piece (n - 1) x i t) by (split; right; lra). specialize (Hp Hq). congruence.
  - destruct i as [|i]; [lia|]. pose proof (Hi i ltac:(lia)) as Hx. replace (Z.of_nat (S i)) with (Z.of_nat i + 1)%Z by lia. rewrite <- (seg_deriv_right x y n i Hx).
    symmetry. refine (derivative_left f (seg_eval (seg_at x y n i)) (x (S i)) (x (S i) - x i) _ _ ltac:(lra) _ Hl (seg_derivable _ _)).
    intros t Ht. pose proof (eval_piece x y n t i Hn Hi ltac:(lia)) as Hp. rewrite Hf in Hp.
    assert (Hq : on_piece (n - 1) x i t) by (split; right; lra). specialize (Hp Hq). congruence.
Qed.
(** Akima's rule for the slope at every node: the mean of the secants on its two sides, each weighted with the turn of the secants on the other side;
    the secants go on as an arithmetic progression beyond the ends. *)
Definition secants_of (x y : nat -> R) (n : nat) (sec : Z -> R) : Prop :=
  (forall k, (S k < n)%nat -> sec (Z.of_nat k) * (x (S k) - x k) = y (S k) - y k) /\
  (forall k, k = (-2)%Z \/ k = (-1)%Z \/ k = (Z.of_nat n - 3)%Z \/ k = (Z.of_nat n - 2)%Z -> sec k - sec (k + 1)%Z = sec (k + 1)%Z - sec (k + 2)%Z).
Lemma secants_m x y n sec : (3 <= n)%nat -> increasing x n -> secants_of x y n sec -> forall k, (-2 <= k <= Z.of_nat n)%Z -> sec k = m x y n k.
Proof.
  intros Hn Hi [H1 H2] k Hk. assert (Hin : forall j, (S j < n)%nat -> sec (Z.of_nat j) = m_in x y j).
  { intros j Hj. pose proof (H1 j Hj). pose proof (Hi j Hj). unfold m_in. apply Rmult_eq_reg_r with (x (S j) - x j); [|lra]. rewrite H. field. lra. }
  pose proof (Hin 0%nat ltac:(lia)) as A0. pose proof (Hin 1%nat ltac:(lia)) as A1. pose proof (Hin (n - 2)%nat ltac:(lia)) as A2. pose proof (Hin (n - 3)%nat ltac:(lia)) as A3.
  replace (Z.of_nat (n - 2)) with (Z.of_nat n - 2)%Z in A2 by lia. replace (Z.of_nat (n - 3)) with (Z.of_nat n - 3)%Z in A3 by lia.
  pose proof (H2 (-2)%Z ltac:(auto)) as B0. pose proof (H2 (-1)%Z ltac:(auto)) as B1. pose proof (H2 (Z.of_nat n - 3)%Z ltac:(auto)) as B2. pose proof (H2 (Z.of_nat n - 2)%Z ltac:(auto)) as B3.
  change (-2 + 1)%Z with (-1)%Z in B0. change (-2 + 2)%Z with 0%Z in B0. change (-1 + 1)%Z with 0%Z in B1. change (-1 + 2)%Z with 1%Z in B1. change (Z.of_nat 0) with 0%Z in A0. change (Z.of_nat 1) with 1%Z in A1.
  replace (Z.of_nat n - 3 + 1)%Z with (Z.of_nat n - 2)%Z in B2 by lia. replace (Z.of_nat n - 3 + 2)%Z with (Z.of_nat n - 1)%Z in B2 by lia.
  replace (Z.of_nat n - 2 + 1)%Z with (Z.of_nat n - 1)%Z in B3 by lia. replace (Z.of_nat n - 2 + 2)%Z with (Z.of_nat n) in B3 by lia.
  unfold m. destruct (Z.eqb_spec k (-2)) as [->|]; [lra|]. destruct (Z.eqb_spec k (-1)) as [->|]; [lra|].
  destruct (Z.eqb_spec k (Z.of_nat n - 1)) as [->|]; [lra|]. destruct (Z.eqb_spec k (Z.of_nat n)) as [->|]; [lra|].
  rewrite <- Hin by lia. now rewrite Z2Nat.id by lia.
Qed.
Theorem c16_weights : forall x y n s d sec i, akima x y n = Ok s -> derivatives s = Ok d -> secants_of x y n sec -> (i < n)%nat ->
  let before := Rabs (sec (Z.of_nat i - 2)%Z - sec (Z.of_nat i - 1)%Z) in let after := Rabs (sec (Z.of_nat i) - sec (Z.of_nat i + 1)%Z) in
  nth i d 0 * (before + after) = after * sec (Z.of_nat i - 1)%Z + before * sec (Z.of_nat i).
Proof.
  intros x y n s d sec i H Hd Hs Hlt before after. destruct (akima_inv _ _ _ _ H) as (Hn & Hi & ->). rewrite derivatives_ok in Hd by assumption.
  injection Hd as <-. rewrite (nth_indep _ 0 (node_slope x y n O)) by (rewrite map_length, seq_length; lia). rewrite map_nth, seq_nth by lia. cbn [Nat.add].
  pose proof (secants_m x y n sec Hn Hi Hs) as Hm. unfold before, after. rewrite !Hm by lia.
  assert (G : forall o, slope (Lw x y n (Z.of_nat i)) (NEw x y n (Z.of_nat i)) (m x y n (Z.of_nat i - 1)) (m x y n (Z.of_nat i)) o * NEw x y n (Z.of_nat i) =
     Rabs (m x y n (Z.of_nat i) - m x y n (Z.of_nat i + 1)) * m x y n (Z.of_nat i - 1) + Lw x y n (Z.of_nat i) * m x y n (Z.of_nat i)).
  { intros o. unfold slope, NEw. pose proof (Rabs_pos (m x y n (Z.of_nat i) - m x y n (Z.of_nat i + 1))) as P1. assert (P2 : 0 <= Lw x y n (Z.of_nat i)) by apply Rabs_pos.
    destruct (Rlt_dec 0 _) as [P|P]; [field; lra|].
    replace (Rabs (m x y n (Z.of_nat i) - m x y n (Z.of_nat i + 1))) with 0 by lra. replace (Lw x y n (Z.of_nat i)) with 0 by lra. ring. }
  unfold node_slope. fold (Lw x y n (Z.of_nat i)). fold (NEw x y n (Z.of_nat i)). destruct (Nat.ltb i (n - 1)); apply G.
Qed.
Print Assumptions c16_weights.
(** Such secants exist for the squares at 0..3: 2k+1. *)
Example c16_weights_case : secants_of INR (fun i => INR i * INR i) 4 (fun k => 2 * IZR k + 1).
Proof.
  split.
  - intros k _. rewrite <- INR_IZR_INZ, !S_INR. ring.
  - intros k _. rewrite !plus_IZR. ring.
Qed.
(** A table accepted with no straight runs meeting (squares), and one with a kink, |x-2| on 0..4. *)
Example c16_nonvacuous : (exists s, akima INR (fun i => INR i * INR i) 4 = Ok s) /\ akima INR INR 2 = Throw RuntimeError /\
  (forall i, (0 < i < 3)%nat -> m INR (fun i => INR i * INR i) 4 (Z.of_nat i - 2) <> m INR (fun i => INR i * INR i) 4 (Z.of_nat i - 1)).
Proof.
  split; [|split].
  - eexists. apply akima_ok; [lia|]. intros j Hj. apply lt_INR. lia.
  - apply akima_refuses. lia.
  - set (y := fun i => INR i * INR i). assert (Em : m INR y 4 (-1) = -1) by (change (2 * m_in INR y 0 - m_in INR y 1 = -1); unfold m_in, y; cbn; field).
    assert (E0 : m INR y 4 0 = 1) by (change (m_in INR y 0 = 1); unfold m_in, y; cbn; field). assert (E1 : m INR y 4 1 = 3) by (change (m_in INR y 1 = 3); unfold m_in, y; cbn; field; lra).
    intros [|[|[|i]]] H; try lia; [change (m INR y 4 (-1) <> m INR y 4 0)|change (m INR y 4 0 <> m INR y 4 1)]; lra.
Qed.
Example c16_kink_nonvacuous : let y := fun i => Rabs (INR i - 2) in
  (exists s, akima INR y 5 = Ok s) /\ m INR y 5 (2 - 2) = m INR y 5 (2 - 1) /\ m INR y 5 2 = m INR y 5 (2 + 1) /\ m INR y 5 (2 - 1) <> m INR y 5 2.
Proof.
  intros y. split; [eexists; apply akima_ok; [lia|intros j Hj; apply lt_INR; lia]|].
  assert (Y0 : y 0%nat = 2) by (unfold y; cbn; rewrite Rabs_left by lra; lra).
  assert (Y1 : y 1%nat = 1) by (unfold y; cbn; rewrite Rabs_left by lra; lra).
  assert (Y2 : y 2%nat = 0) by (unfold y; cbn; replace (1 + 1 - 2) with 0 by lra; apply Rabs_R0).
  assert (Y3 : y 3%nat = 1) by (unfold y; cbn; rewrite Rabs_right by lra; lra).
  assert (Y4 : y 4%nat = 2) by (unfold y; cbn; rewrite Rabs_right by lra; lra).
  assert (E0 : m INR y 5 0 = -1) by (change (m_in INR y 0 = -1); unfold m_in; rewrite Y0, Y1; cbn; field).
  assert (E1 : m INR y 5 1 = -1) by (change (m_in INR y 1 = -1); unfold m_in; rewrite Y1, Y2; cbn; field; lra).
  assert (E2 : m INR y 5 2 = 1) by (change (m_in INR y 2 = 1); unfold m_in; rewrite Y2, Y3; cbn; field; lra).
  assert (E3 : m INR y 5 3 = 1) by (change (m_in INR y 3 = 1); unfold m_in; rewrite Y3, Y4; cbn; field; lra).
  change (2 - 2)%Z with 0%Z. change (2 - 1)%Z with 1%Z. change (2 + 1)%Z with 3%Z. rewrite E0, E1, E2, E3. lra.
Qed.
Print Assumptions c16_constructor.
Print Assumptions c16_nodes.
Print Assumptions c16_line.
Print Assumptions c16_continuous.
Print Assumptions c16_C1_partial.
Print Assumptions c16_kink_refuted.
Print Assumptions c16_accessors.
Print Assumptions c16_derivatives.

(** ** C17 *)
(** [data j i] with rows (y) first; sizes as the constructor receives them. *)
Definition good_grid (rows cols : nat) xc nx yc ny : Prop :=
  nx = cols /\ ny = rows /\ (3 <= rows)%nat /\ (3 <= cols)%nat /\ strictly_increasing xc cols /\ strictly_increasing yc rows.
Theorem c17_constructor : forall data rows cols xc nx yc ny, (0 < rows)%nat -> (0 < cols)%nat ->
  (good_grid rows cols xc nx yc ny -> exists b, bicubic_make data rows cols xc nx yc ny = Ok b) /\
  (~ good_grid rows cols xc nx yc ny -> bicubic_make data rows cols xc nx yc ny = Throw RuntimeError).
Proof.
  intros data rows cols xc nx yc ny Hr Hc. unfold good_grid. rewrite !strictly_iff. split.
  - intros (-> & -> & H1 & H2 & H3 & H4). destruct (make_ok data rows cols xc yc H1 H2 H3 H4) as (b & Hb & _). now exists b.
  - intros H. apply make_refuses. destruct (Nat.eq_dec nx cols); [|tauto]. destruct (Nat.eq_dec ny rows); [|tauto]. right. right. tauto.
Qed.
Lemma make_inv data rows cols xc nx yc ny b : (0 < rows)%nat -> (0 < cols)%nat -> bicubic_make data rows cols xc nx yc ny = Ok b ->
  (2 <= bnx b)%nat /\ (2 <= bny b)%nat /\ increasing (bx b) (bnx b) /\ increasing (by_ b) (bny b) /\ bdata b = data /\ bnx b = cols /\ bny b = rows /\ bx b = xc /\ by_ b = yc.
Proof.
  intros Hr Hc H. destruct (classic (good_grid rows cols xc nx yc ny)) as [Hg|Hg].
  - destruct Hg as (-> & -> & H1 & H2 & H3 & H4). apply strictly_iff in H3. apply strictly_iff in H4.
    destruct (make_ok data rows cols xc yc H1 H2 H3 H4) as (b' & Hb & E1 & E2 & E3 & E4 & E5 & _). rewrite Hb in H. injection H as <-.
    rewrite E1, E2, E3, E4, E5. repeat split; trivial; lia.
  - rewrite (proj2 (c17_constructor data rows cols xc nx yc ny Hr Hc) Hg) in H. discriminate.
Qed.
Theorem c17_nodes : forall data rows cols xc nx yc ny b i j, bicubic_make data rows cols xc nx yc ny = Ok b ->
  (i < cols)%nat -> (j < rows)%nat -> bicubic_eval b (xc i) (yc j) = data j i.
Proof.
  intros data rows cols xc nx yc ny b i j H Hi Hj. destruct (make_inv data rows cols xc nx yc ny b ltac:(lia) ltac:(lia) H) as (H1 & H2 & H3 & H4 & <- & <- & <- & <- & <-).
  now apply bicubic_nodes.
Qed.
(** Continuous in both variables together at every point of the plane, cell edges and the extrapolated region included. *)
Theorem c17_continuous : forall data rows cols xc nx yc ny b, (0 < rows)%nat -> (0 < cols)%nat -> bicubic_make data rows cols xc nx yc ny = Ok b ->
  forall x y e, e > 0 -> exists d, d > 0 /\ forall p q, Rabs (p - x) < d -> Rabs (q - y) < d -> Rabs (bicubic_eval b p q - bicubic_eval b x y) < e.
Proof.
  intros data rows cols xc nx yc ny b Hr Hc H. destruct (make_inv _ _ _ _ _ _ _ _ Hr Hc H) as (H1 & H2 & H3 & H4 & _).
  exact (bicubic_continuous b H1 H2 H3 H4).
Qed.
(** Partial derivatives exist everywhere, also on cell edges. *)
Theorem c17_smooth : forall data rows cols xc nx yc ny b, (0 < rows)%nat -> (0 < cols)%nat -> bicubic_make data rows cols xc nx yc ny = Ok b ->
  forall x y, (exists l, derivable_pt_lim (fun z => bicubic_eval b z y) x l) /\ (exists l, derivable_pt_lim (fun z => bicubic_eval b x z) y l).
Proof.
  intros data rows cols xc nx yc ny b Hr Hc H x y. destruct (make_inv _ _ _ _ _ _ _ _ Hr Hc H) as (H1 & H2 & H3 & H4 & _).
  destruct (cell_index_spec (bx b) (bnx b) x H1 H3) as (Hi & Px). destruct (cell_index_spec (by_ b) (bny b) y H2 H4) as (Hj & Py).
  assert (Ox : on_piece (bnx b - 1) (bx b) (cell_index (bx b) (bnx b) x) x) by (destruct Px as [P [Q|Q]]; split; trivial; [now left|right; lra]).
  assert (Oy : on_piece (bny b - 1) (by_ b) (cell_index (by_ b) (bny b) y) y) by (destruct Py as [P [Q|Q]]; split; trivial; [now left|right; lra]).
  split; eexists; [apply (bicubic_derivable_x b H1 H2 H3 H4); eassumption|apply (bicubic_derivable_y b H1 H2 H3 H4); eassumption].
Qed.
Example c17_nonvacuous : good_grid 3 4 INR 4 INR 3 /\ ~ good_grid 3 4 INR 3 INR 4.
Proof.
  split.
  - unfold good_grid, strictly_increasing. repeat split; try lia; intros i j H _; apply lt_INR; lia.
  - intros (H & _). lia.
Qed.
Print Assumptions c17_constructor.
Print Assumptions c17_nodes.
Print Assumptions c17_continuous.
Print Assumptions c17_smooth.
