From Coq Require Import List Arith ZArith Reals Lra Lia.
From Verif Require Import Err AkimaModel PiecewiseProofs.
Import ListNotations.
Local Open Scope R_scope.

Section A.
Variables (x y : nat -> R) (n : nat).
Notation m := (m x y n).

(** Slope left and right of node j. *)
Definition Lw (j : Z) : R := Rabs (m (j - 2) - m (j - 1)).
Definition NEw (j : Z) : R := Lw j + Rabs (m j - m (j + 1)).
Definition tR (j : Z) : R := slope (Lw j) (NEw j) (m (j - 1)) (m j) (m j).
Definition tL (j : Z) : R := slope (Lw j) (NEw j) (m (j - 1)) (m j) (m (j - 1)).
Definition seg_at (i : nat) : segment :=
  let iz := Z.of_nat i in let h := x (S i) - x i in
  Seg (x i) (y i) (tR iz) ((3 * m iz - 2 * tR iz - tL (iz + 1)) / h) ((tR iz + tL (iz + 1) - 2 * m iz) / (h * h)).

Definition carry_at (i : nat) : carry :=
  let iz := Z.of_nat i in Carry (Lw iz) (NEw iz) (m (iz - 2)) (m (iz - 1)) (m iz) (m (iz + 1)).

Lemma step_ok i c : x i < x (S i) -> (i = O -> L_ip1 c = -1) -> (i <> O -> c = carry_at i) ->
  akima_step x y n i c = Ok (seg_at i, carry_at (S i)).
Proof.
  intros Hx H0 Hc. unfold akima_step.
  destruct (Rlt_dec (x (S i) - x i) 0); [lra|]. destruct (Req_EM_T (x (S i) - x i) 0); [lra|].
  assert (Hn : carry_at (S i) = Carry (Rabs (m (Z.of_nat i - 1) - m (Z.of_nat i)))
      (Rabs (m (Z.of_nat i - 1) - m (Z.of_nat i)) + Rabs (m (Z.of_nat i + 1) - m (Z.of_nat i + 2)))
      (m (Z.of_nat i - 1)) (m (Z.of_nat i)) (m (Z.of_nat i + 1)) (m (Z.of_nat i + 2))).
  { unfold carry_at, NEw, Lw. rewrite Nat2Z.inj_succ. unfold Z.succ.
    replace (Z.of_nat i + 1 - 2)%Z with (Z.of_nat i - 1)%Z by lia. replace (Z.of_nat i + 1 - 1)%Z with (Z.of_nat i) by lia.
    replace (Z.of_nat i + 1 + 1)%Z with (Z.of_nat i + 2)%Z by lia. reflexivity. }
  assert (HtL : tL (Z.of_nat i + 1) = slope (Rabs (m (Z.of_nat i - 1) - m (Z.of_nat i)))
      (Rabs (m (Z.of_nat i - 1) - m (Z.of_nat i)) + Rabs (m (Z.of_nat i + 1) - m (Z.of_nat i + 2))) (m (Z.of_nat i)) (m (Z.of_nat i + 1)) (m (Z.of_nat i))).
  { unfold tL, NEw, Lw. replace (Z.of_nat i + 1 - 2)%Z with (Z.of_nat i - 1)%Z by lia. replace (Z.of_nat i + 1 - 1)%Z with (Z.of_nat i) by lia.
    replace (Z.of_nat i + 1 + 1)%Z with (Z.of_nat i + 2)%Z by lia. reflexivity. }
  destruct (Nat.eqb_spec i 0) as [E|E].
  - cbn [L_ip1 NE_ip1 AkimaModel.m_im2 AkimaModel.m_im1 AkimaModel.m_i AkimaModel.m_ip1]. rewrite (H0 E).
    destruct (Rle_dec 0 (-1)); [lra|]. rewrite Hn. unfold seg_at. rewrite HtL. unfold tR, NEw, Lw. reflexivity.
  - rewrite (Hc E). unfold carry_at at 1 2 3 4 5 6 7 8 9 10 11 12 13 14 15 16. cbn [L_ip1 NE_ip1 AkimaModel.m_im2 AkimaModel.m_im1 AkimaModel.m_i AkimaModel.m_ip1].
    destruct (Rle_dec 0 (Lw (Z.of_nat i))) as [_|Hf]; [|exfalso; apply Hf; apply Rabs_pos].
    rewrite Hn. unfold seg_at. rewrite HtL. unfold tR. reflexivity.
Qed.

Lemma loop_ok k : forall i c, (forall j, (i <= j < i + k)%nat -> x j < x (S j)) -> (i = O -> L_ip1 c = -1) -> (i <> O -> c = carry_at i) ->
  akima_loop x y n k i c = Ok (map seg_at (seq i k)).
Proof.
  induction k as [|k IH]; intros i c Hx H0 Hc; [reflexivity|]. cbn [akima_loop seq map].
  rewrite step_ok; trivial; [|apply Hx; lia]. cbn [obind]. rewrite IH; trivial.
  - intros j Hj. apply Hx. lia.
  - discriminate.
Qed.
Lemma loop_bad k : forall i c j, (i <= j < i + k)%nat -> ~ x j < x (S j) -> is_ok (akima_loop x y n k i c) -> False.
Proof.
  induction k as [|k IH]; intros i c j Hj Hx Hok; [lia|]. cbn [akima_loop] in Hok.
  destruct (akima_step x y n i c) as [[s c']| |] eqn:E; cbn [obind] in Hok; try (destruct Hok; discriminate).
  destruct (Nat.eq_dec i j) as [->|].
  - unfold akima_step in E. destruct (Rlt_dec (x (S j) - x j) 0); [discriminate|]. destruct (Req_EM_T (x (S j) - x j) 0); [discriminate|]. lra.
  - apply (IH (S i) c' j); [lia|exact Hx|]. destruct (akima_loop x y n k (S i) c') as [r| |]; cbn [obind] in Hok; try (destruct Hok; discriminate). now exists r.
Qed.
Lemma loop_throws k : forall i c, is_ok (akima_loop x y n k i c) \/ akima_loop x y n k i c = Throw RuntimeError.
Proof.
  induction k as [|k IH]; intros i c; cbn [akima_loop]; [left; now exists []|].
  destruct (akima_step x y n i c) as [[s c']|e|] eqn:E; cbn [obind].
  - destruct (IH (S i) c') as [[r ->]| ->]; [left; now eexists|now right].
  - right. unfold akima_step in E. destruct (Rlt_dec (x (S i) - x i) 0); [congruence|]. destruct (Req_EM_T (x (S i) - x i) 0); [congruence|].
    cbv zeta in E. match type of E with context [let (_, _) := ?p in _] => destruct p end. discriminate.
  - exfalso. unfold akima_step in E. destruct (Rlt_dec (x (S i) - x i) 0); [congruence|]. destruct (Req_EM_T (x (S i) - x i) 0); [congruence|].
    cbv zeta in E. match type of E with context [let (_, _) := ?p in _] => destruct p end. discriminate.
Qed.

Definition increasing : Prop := forall j, (S j < n)%nat -> x j < x (S j).
Definition the_spline : spline := Spline (map seg_at (seq 0 (n - 1))) (x (n - 1)) (y (n - 1)).

Lemma akima_ok : (3 <= n)%nat -> increasing -> akima x y n = Ok the_spline.
Proof.
  intros Hn Hi. unfold akima. destruct (Nat.ltb_spec n 3); [lia|]. rewrite loop_ok; cbn; trivial; try congruence.
  intros j Hj. apply Hi. lia.
Qed.
Lemma akima_refuses : ~ ((3 <= n)%nat /\ increasing) -> akima x y n = Throw RuntimeError.
Proof.
  intros H. unfold akima. destruct (Nat.ltb_spec n 3) as [|H3]; [reflexivity|].
  destruct (loop_throws (n - 1) 0 (Carry (-1) (-1) 0 0 0 0)) as [Hok| ->]; [|reflexivity].
  exfalso. apply H. split; [exact H3|]. intros j Hj. destruct (Rlt_dec (x j) (x (S j))); [assumption|].
  exfalso. apply (loop_bad (n - 1) 0 (Carry (-1) (-1) 0 0 0 0) j); trivial. lia.
Qed.

(** *** The pieces *)
Lemma seg_left i : seg_eval (seg_at i) (x i) = y i.
Proof. unfold seg_eval, seg_at. cbn. ring. Qed.
Lemma m_inner i : (S i < n)%nat -> m (Z.of_nat i) = m_in x y i.
Proof.
  intros H. unfold AkimaModel.m. destruct (Z.eqb_spec (Z.of_nat i) (-2)); [lia|]. destruct (Z.eqb_spec (Z.of_nat i) (-1)); [lia|].
  destruct (Z.eqb_spec (Z.of_nat i) (Z.of_nat n - 1)); [lia|]. destruct (Z.eqb_spec (Z.of_nat i) (Z.of_nat n)); [lia|]. now rewrite Nat2Z.id.
Qed.
Lemma seg_right i : (S i < n)%nat -> x i < x (S i) -> seg_eval (seg_at i) (x (S i)) = y (S i).
Proof.
  intros Hi Hx. unfold seg_eval, seg_at. cbn. rewrite m_inner by assumption. unfold m_in.
  set (r := tR (Z.of_nat i)). set (l := tL (Z.of_nat i + 1)). field. lra.
Qed.
Lemma seg_deriv_left i : seg_deriv (seg_at i) (x i) = tR (Z.of_nat i).
Proof. unfold seg_deriv, seg_at. cbn. ring. Qed.
Lemma seg_deriv_right i : x i < x (S i) -> seg_deriv (seg_at i) (x (S i)) = tL (Z.of_nat i + 1).
Proof. intros Hx. unfold seg_deriv, seg_at. cbn. field. lra. Qed.
Lemma seg_derivable s t : derivable_pt_lim (seg_eval s) t (seg_deriv s t).
Proof.
  unfold seg_eval, seg_deriv. set (u := fun z => z - sx s).
  assert (Hu : derivable_pt_lim u t 1).
  { unfold u. replace 1 with (1 - 0) by ring. apply derivable_pt_lim_minus; [apply derivable_pt_lim_id|apply derivable_pt_lim_const]. }
  replace (((3 * a3 s) * (t - sx s) + 2 * a2 s) * (t - sx s) + a1 s)
    with ((((0 * u t + a3 s * 1 + 0) * u t + (a3 s * u t + a2 s) * 1 + 0) * u t + ((a3 s * u t + a2 s) * u t + a1 s) * 1) + 0) by (unfold u; ring).
  apply (derivable_pt_lim_plus (fun z => ((a3 s * u z + a2 s) * u z + a1 s) * u z) (fun _ => a0 s)); [|apply derivable_pt_lim_const].
  apply (derivable_pt_lim_mult (fun z => (a3 s * u z + a2 s) * u z + a1 s) u); [|exact Hu].
  apply (derivable_pt_lim_plus (fun z => (a3 s * u z + a2 s) * u z) (fun _ => a1 s)); [|apply derivable_pt_lim_const].
  apply (derivable_pt_lim_mult (fun z => a3 s * u z + a2 s) u); [|exact Hu].
  apply (derivable_pt_lim_plus (fun z => a3 s * u z) (fun _ => a2 s)); [|apply derivable_pt_lim_const].
  apply (derivable_pt_lim_mult (fun _ => a3 s) u); [apply derivable_pt_lim_const|exact Hu].
Qed.
Lemma seg_deriv_continuous s t : continuity_pt (seg_deriv s) t.
Proof. unfold seg_deriv. reg. Qed.

Lemma increasing_lt : increasing -> forall i j, (i < j)%nat -> (j < n)%nat -> x i < x j.
Proof.
  intros H i j Hij. induction Hij as [|j Hij IH]; intros Hj; [now apply H|]. pose proof (H j Hj). assert (x i < x j) by (apply IH; lia). lra.
Qed.

(** The number of segments starting at or before t. *)
Lemma upper_spec k : forall i t, (forall a b, (i <= a)%nat -> (a < b)%nat -> (b < i + k)%nat -> x a < x b) ->
  let u := upper (map seg_at (seq i k)) t in
  (u <= k)%nat /\ (forall j, (j < u)%nat -> x (i + j)%nat <= t) /\ ((u < k)%nat -> t < x (i + u)%nat).
Proof.
  induction k as [|k IH]; intros i t Hinc; cbn [seq map upper]; [repeat split; intros; lia|].
  cbn [sx seg_at]. destruct (Rlt_dec t (x i)) as [Hlt|Hge].
  - split; [lia|]. split; [intros; lia|]. intros _. now rewrite Nat.add_0_r.
  - destruct (IH (S i) t) as (H1 & H2 & H3); [intros a b Ha Hab Hb; apply Hinc; lia|].
    split; [lia|]. split.
    + intros [|j] Hj; [rewrite Nat.add_0_r; lra|]. replace (i + S j)%nat with (S i + j)%nat by lia. apply H2. lia.
    + intros Hu. replace (i + S (upper (map seg_at (seq (S i) k)) t))%nat with (S i + upper (map seg_at (seq (S i) k)) t)%nat by lia. apply H3. lia.
Qed.

Lemma eval_strict t j : (3 <= n)%nat -> increasing -> (j < n - 1)%nat -> (j = O \/ x j <= t) -> (S j = (n - 1)%nat \/ t < x (S j)) ->
  spline_eval the_spline t = Ok (seg_eval (seg_at j) t).
Proof.
  intros Hn Hi Hj H1 H2. unfold spline_eval, the_spline. cbn [segments].
  destruct (n - 1)%nat as [|k] eqn:Ek; [lia|].
  assert (Hinc : forall a b, (0 <= a)%nat -> (a < b)%nat -> (b < 0 + S k)%nat -> x a < x b) by (intros; apply increasing_lt; trivial; lia).
  pose proof (upper_spec (S k) 0 t Hinc) as Hu. cbv zeta in Hu.
  assert (Hnth : forall p, (p < S k)%nat -> nth_error (map seg_at (seq 0 (S k))) p = Some (seg_at p)).
  { intros p Hp. rewrite nth_error_map, nth_error_nth' with (d := O) by (rewrite seq_length; lia). rewrite seq_nth by lia. reflexivity. }
  cbn [seq map] in *. cbn [sx seg_at] in Hu |- *.
  destruct (Rlt_dec t (x 0%nat)) as [Hlt|Hge].
  - destruct j as [|j]; [reflexivity|]. exfalso. destruct H1 as [H1|H1]; [discriminate|]. pose proof (increasing_lt Hi 0 (S j) ltac:(lia) ltac:(lia)). lra.
  - change (sx (seg_at 0)) with (x 0%nat) in *.
    set (u := upper (seg_at 0 :: map seg_at (seq 1 k)) t) in *. destruct Hu as (Hu1 & Hu2 & Hu3).
    assert (Eu : u = S j).
    { destruct (Nat.lt_trichotomy u (S j)) as [Hlt'|[E|Hgt]]; [exfalso|exact E|exfalso].
      - assert (Ht : t < x u) by (specialize (Hu3 ltac:(lia)); rewrite Nat.add_0_l in Hu3; exact Hu3).
        destruct (Nat.eq_dec u 0) as [E0|E0]; [rewrite E0 in Ht; lra|].
        destruct H1 as [H1|H1]; [lia|]. destruct (Nat.eq_dec u j) as [->|]; [lra|]. pose proof (increasing_lt Hi u j ltac:(lia) ltac:(lia)). lra.
      - destruct H2 as [H2|H2]; [lia|]. specialize (Hu2 (S j) Hgt). rewrite Nat.add_0_l in Hu2. lra. }
    rewrite Eu. replace (S j - 1)%nat with j by lia. rewrite (Hnth j) by lia. reflexivity.
Qed.

(** The value on every closed piece. *)
Lemma eval_piece t j : (3 <= n)%nat -> increasing -> (j < n - 1)%nat -> on_piece (n - 1) x j t ->
  spline_eval the_spline t = Ok (seg_eval (seg_at j) t).
Proof.
  intros Hn Hi Hj [H1 H2]. destruct H2 as [H2|H2]; [apply eval_strict; auto|].
  destruct (Rle_lt_or_eq_dec _ _ H2) as [Hlt|Heq]; [apply eval_strict; auto|].
  destruct (Nat.eq_dec (S j) (n - 1)) as [E|E]; [apply eval_strict; auto|].
  rewrite (eval_strict t (S j)); trivial; try lia.
  - rewrite Heq. f_equal. rewrite seg_right, seg_left; trivial; try lia. apply Hi. lia.
  - right. lra.
  - destruct (Nat.eq_dec (S (S j)) (n - 1)); [now left|right]. rewrite Heq. apply Hi. lia.
Qed.

Definition spline_fun (t : R) : R := match spline_eval the_spline t with Ok v => v | _ => 0 end.
Lemma spline_fun_piece t j : (3 <= n)%nat -> increasing -> (j < n - 1)%nat -> on_piece (n - 1) x j t -> spline_fun t = seg_eval (seg_at j) t.
Proof. intros. unfold spline_fun. now rewrite (eval_piece t j). Qed.
Lemma eval_total t : (3 <= n)%nat -> increasing -> spline_eval the_spline t = Ok (spline_fun t).
Proof.
  intros Hn Hi. destruct (find_piece (n - 1) x ltac:(lia) t) as (j & Hj & H1 & H2).
  unfold spline_fun. rewrite (eval_strict t j) by auto. reflexivity.
Qed.

Lemma spline_nodes i : (3 <= n)%nat -> increasing -> (i < n)%nat -> spline_eval the_spline (x i) = Ok (y i).
Proof.
  intros Hn Hi Hlt. destruct (Nat.eq_dec i (n - 1)) as [E|E].
  - rewrite (eval_strict (x i) (n - 2)); trivial; try lia.
    + f_equal. replace i with (S (n - 2)) by lia. apply seg_right; [lia|]. apply Hi. lia.
    + right. apply Rlt_le. apply increasing_lt; trivial; lia.
  - rewrite (eval_strict (x i) i); trivial; try lia.
    + f_equal. apply seg_left.
    + right. lra.
    + destruct (Nat.eq_dec (S i) (n - 1)); [now left|right]. apply Hi. lia.
Qed.

Lemma spline_continuous : (3 <= n)%nat -> increasing -> forall t, continuity_pt spline_fun t.
Proof.
  intros Hn Hi. apply (pieces_continuous spline_fun (n - 1) x (fun j => seg_eval (seg_at j))); trivial; try lia.
  - intros i H. apply Hi. lia.
  - intros j t Hj Ht. now apply spline_fun_piece.
  - intros j t _. apply derivable_continuous_pt. eexists. apply seg_derivable.
Qed.

(** Node [i] is smooth: not both sides locally straight. *)
Definition smooth_node (i : nat) : Prop := NEw (Z.of_nat i) > 0.
Lemma slopes_meet i : smooth_node i -> tL (Z.of_nat i) = tR (Z.of_nat i).
Proof. unfold smooth_node, tL, tR, slope. intros H. destruct (Rlt_dec 0 (NEw (Z.of_nat i))); [reflexivity|lra]. Qed.

Lemma spline_derivative t j : (3 <= n)%nat -> increasing -> (j < n - 1)%nat -> on_piece (n - 1) x j t ->
  (forall i, (0 < i < n - 1)%nat -> t = x i -> smooth_node i) -> derivable_pt_lim spline_fun t (seg_deriv (seg_at j) t).
Proof.
  intros Hn Hi Hj Ht Hs.
  apply (pieces_derivative spline_fun (n - 1) x (fun j => seg_eval (seg_at j)) ltac:(lia)) with (g' := fun j => seg_deriv (seg_at j)); trivial.
  - intros i H. apply Hi. lia.
  - intros k u Hk Hu. now apply spline_fun_piece.
  - intros k u _. apply seg_derivable.
  - intros i H E. rewrite E. rewrite seg_deriv_right, seg_deriv_left by (apply Hi; lia).
    replace (Z.of_nat i + 1)%Z with (Z.of_nat (S i)) by lia. apply slopes_meet. apply Hs; [lia|exact E].
Qed.
Lemma spline_C1 (D : R -> R) : (3 <= n)%nat -> increasing -> (forall i, (0 < i < n - 1)%nat -> smooth_node i) ->
  (forall t, derivable_pt_lim spline_fun t (D t)) -> forall t, continuity_pt D t.
Proof.
  intros Hn Hi Hs HD. apply (pieces_continuous D (n - 1) x (fun j => seg_deriv (seg_at j))); trivial; try lia.
  - intros i H. apply Hi. lia.
  - intros j t Hj Ht. eapply uniqueness_limite; [apply HD|]. apply spline_derivative; auto.
  - intros. apply seg_deriv_continuous.
Qed.
(** One-sided slopes at an interior node where both sides are straight. *)
Lemma kink i : ~ smooth_node i -> tL (Z.of_nat i) = m (Z.of_nat i - 1) /\ tR (Z.of_nat i) = m (Z.of_nat i).
Proof. unfold smooth_node, tL, tR, slope. intros H. destruct (Rlt_dec 0 (NEw (Z.of_nat i))); [lra|auto]. Qed.

(** Straight-line data. *)
Lemma line_m a b : (3 <= n)%nat -> increasing -> (forall i, (i < n)%nat -> y i = a + b * x i) -> forall i, (-2 <= i <= Z.of_nat n)%Z -> m i = b.
Proof.
  intros Hn Hi Hy. assert (Hin : forall i, (S i < n)%nat -> m_in x y i = b).
  { intros i H. unfold m_in. rewrite !Hy by lia. pose proof (Hi i H). field. lra. }
  intros i Hr. unfold AkimaModel.m. rewrite !Hin by lia.
  destruct (Z.eqb_spec i (-2)); [lra|]. destruct (Z.eqb_spec i (-1)); [lra|]. destruct (Z.eqb_spec i (Z.of_nat n - 1)); [lra|].
  destruct (Z.eqb_spec i (Z.of_nat n)); [lra|]. apply Hin. lia.
Qed.
Lemma slope_const L NE b o : o = b -> slope L NE b b o = b.
Proof. intros ->. unfold slope. destruct (Rlt_dec 0 NE); [cbv zeta; ring|reflexivity]. Qed.
Lemma spline_line a b t : (3 <= n)%nat -> increasing -> (forall i, (i < n)%nat -> y i = a + b * x i) -> spline_eval the_spline t = Ok (a + b * t).
Proof.
  intros Hn Hi Hy. destruct (find_piece (n - 1) x ltac:(lia) t) as (j & Hj & H1 & H2). rewrite (eval_strict t j) by auto. f_equal.
  unfold seg_eval, seg_at. cbn. pose proof (line_m a b Hn Hi Hy) as Hm.
  unfold tR, tL. rewrite !Hm by lia. rewrite !slope_const by reflexivity. rewrite Hy by lia. pose proof (Hi j ltac:(lia)). field. lra.
Qed.

(** Accessors. *)
Lemma abscissas_ok : (3 <= n)%nat -> abscissas the_spline = map x (seq 0 n).
Proof.
  intros Hn. unfold abscissas, the_spline. cbn. rewrite map_map. cbn. destruct n as [|k]; [lia|].
  replace (S k - 1)%nat with k by lia. rewrite seq_S, map_app. reflexivity.
Qed.
Lemma ordinates_ok : (3 <= n)%nat -> ordinates the_spline = map y (seq 0 n).
Proof.
  intros Hn. unfold ordinates, the_spline. cbn. rewrite map_map. cbn. destruct n as [|k]; [lia|].
  replace (S k - 1)%nat with k by lia. rewrite seq_S, map_app. reflexivity.
Qed.
Definition node_slope (i : nat) : R := if Nat.ltb i (n - 1) then tR (Z.of_nat i) else tL (Z.of_nat i).
Lemma derivatives_ok : (3 <= n)%nat -> increasing -> derivatives the_spline = Ok (map node_slope (seq 0 n)).
Proof.
  intros Hn Hi. unfold derivatives, the_spline. cbn [segments xLast].
  destruct (n - 1)%nat as [|k] eqn:Ek; [lia|].
  assert (Hr : rev (map seg_at (seq 0 (S k))) = seg_at k :: rev (map seg_at (seq 0 k)))
    by (rewrite seq_S, map_app, rev_app_distr; reflexivity).
  rewrite Hr. f_equal. assert (Hseq : seq 0 n = seq 0 (S k) ++ [S k]) by (replace n with (S (S k)) by lia; apply (seq_S (S k) 0)). rewrite Hseq, map_app. f_equal.
  - rewrite map_map. apply map_ext_in. intros i Hin. apply in_seq in Hin. unfold node_slope. destruct (Nat.ltb_spec i (n - 1)); [reflexivity|lia].
  - cbn [map]. f_equal. cbn [Nat.add]. rewrite seg_deriv_right by (apply Hi; lia). unfold node_slope. destruct (Nat.ltb_spec (S k) (n - 1)); [lia|]. f_equal. lia.
Qed.
End A.
