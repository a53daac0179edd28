(** Properties C19 (adaptive quadrature) and C20 (the fast bin average quadrature). *)
From Coq Require Import List Arith Reals Lra Lia Permutation Bool.
From Verif Require Import Err QuadModel QuadProofs.
Import ListNotations.
Local Open Scope R_scope.

(** ** Specification: Lobatto's rules, stated without the code's intermediate values *)
Definition seven_point (f : R -> R) (a b : R) : R :=
  let m := (a + b) / 2 in let h := (b - a) / 2 in
  h / 1470 * (77 * (f a + f b) + 432 * (f (m - sqrt (2 / 3) * h) + f (m + sqrt (2 / 3) * h)) + 625 * (f (m - h / sqrt 5) + f (m + h / sqrt 5)) + 672 * f m).
Definition four_point (f : R -> R) (a b : R) : R :=
  let m := (a + b) / 2 in let h := (b - a) / 2 in h / 6 * (f a + f b + 5 * (f (m - h / sqrt 5) + f (m + h / sqrt 5))).
(** Sum over consecutive pieces of the list of points, which starts at [a]. *)
Fixpoint over_pieces (g : R -> R -> R) (a : R) (pts : list R) : R := match pts with [] => 0 | p :: ps => g a p + over_pieces g p ps end.
Fixpoint increasing_to (a : R) (pts : list R) (b : R) : Prop := match pts with [] => a = b | p :: ps => a < p /\ increasing_to p ps b end.
Fixpoint all_pieces (P : R -> R -> Prop) (a : R) (pts : list R) : Prop := match pts with [] => True | p :: ps => P a p /\ all_pieces P p ps end.
Definition is_integral (f : R -> R) (a b v : R) : Prop := exists F, (forall x, derivable_pt_lim F x (f x)) /\ v = F b - F a.
Definition too_narrow (a b : R) : Prop := b - a <= 32 * / 2 ^ 52 * Rmax (Rabs a) (Rabs b).

Lemma value_seven f a b : value (evaluate f a b (f a) (f b)) = seven_point f a b.
Proof.
  unfold seven_point. cbn [evaluate value yv]. rewrite !pt_eq. unfold abscissa. cbn [nth]. cbv zeta. unfold alpha, beta.
  assert (S5 : sqrt 5 <> 0) by (apply Rgt_not_eq, sqrt_lt_R0; lra).
  replace ((a + b) / 2 + 0 * ((b - a) / 2)) with ((a + b) / 2) by ring.
  replace ((a + b) / 2 + - sqrt (2 / 3) * ((b - a) / 2)) with ((a + b) / 2 - sqrt (2 / 3) * ((b - a) / 2)) by ring.
  replace ((a + b) / 2 + - (1 / sqrt 5) * ((b - a) / 2)) with ((a + b) / 2 - (b - a) / 2 / sqrt 5) by (field; assumption).
  replace ((a + b) / 2 + 1 / sqrt 5 * ((b - a) / 2)) with ((a + b) / 2 + (b - a) / 2 / sqrt 5) by (field; assumption). reflexivity.
Qed.
Lemma value_four f a b : est2 (evaluate f a b (f a) (f b)) = four_point f a b.
Proof.
  unfold four_point. cbn [evaluate est2 yv]. rewrite !pt_eq. unfold abscissa. cbn [nth]. cbv zeta. unfold alpha, beta.
  assert (S5 : sqrt 5 <> 0) by (apply Rgt_not_eq, sqrt_lt_R0; lra).
  replace ((a + b) / 2 + - (1 / sqrt 5) * ((b - a) / 2)) with ((a + b) / 2 - (b - a) / 2 / sqrt 5) by (field; assumption).
  replace ((a + b) / 2 + 1 / sqrt 5 * ((b - a) / 2)) with ((a + b) / 2 + (b - a) / 2 / sqrt 5) by (field; assumption). reflexivity.
Qed.
Lemma chain_pieces f l : forall a b, chain a l b -> Forall (genuine f) l ->
  increasing_to a (map ib l) b /\ sum_value l = over_pieces (seven_point f) a (map ib l) /\
  (forall T, Forall (accepted_ok T) l -> all_pieces (fun p q => Rabs (seven_point f p q - four_point f p q) <= T \/ too_narrow p q) a (map ib l)) /\
  (existsb (fun i => negb (can_subdivide i)) l = false <-> all_pieces (fun p q => ~ too_narrow p q) a (map ib l)).
Proof.
  induction l as [|i l IH]; intros a b H G.
  - cbn in H |- *. repeat split; trivial.
  - destruct H as (H1 & H2 & H3). inversion G as [|? ? G1 G2]; subst. destruct (IH _ _ H3 G2) as (I1 & I2 & I3 & I4).
    assert (E7 : value i = seven_point f (ia i) (ib i)) by (rewrite G1 at 1; apply value_seven).
    assert (E4 : est2 i = four_point f (ia i) (ib i)) by (rewrite G1 at 1; apply value_four).
    assert (EN : can_subdivide i = false <-> too_narrow (ia i) (ib i)) by (unfold can_subdivide, too_narrow, epsilon; destruct (Rlt_dec _ _); split; intros; try discriminate; try reflexivity; lra).
    repeat split.
    + exact H2.
    + exact I1.
    + cbn [map over_pieces]. rewrite <- I2, <- E7. reflexivity.
    + inversion H as [|? ? A1 A2]; subst. destruct A1 as [A|A]; [left; unfold badness in A; rewrite <- E7, <- E4; lra|right; now apply EN].
    + inversion H as [|? ? A1 A2]; subst. now apply I3.
    + cbn [existsb] in H. apply orb_false_iff in H as [Ha Hb]. intros Hc%EN. now rewrite Hc in Ha.
    + cbn [existsb] in H. apply orb_false_iff in H as [Ha Hb]. now apply I4.
    + cbn [map all_pieces existsb]. intros [Ha Hb]. apply orb_false_iff. split; [|now apply I4].
      apply negb_false_iff. destruct (can_subdivide i); [reflexivity|]. exfalso. apply Ha. now apply EN.
Qed.

(** ** C19 *)
(** A finished integration is either the first, 13-point, estimate over the whole interval, or a sum of 7-point estimates over pieces that
    follow each other from one end to the other, each of which met the (scaled) tolerance or was too narrow to be split. Every piece is
    reported as good when the out-of-tolerance flag is off. *)
Theorem c19_partition : forall f fuel a b tol opt r, a < b -> given f opt a b -> integrate f fuel a b tol opt = Some (Ok r) ->
  integral r = kronrod13 f a b (f a) (f b) \/
  exists pts T, increasing_to a pts b /\ T > 0 /\ integral r = over_pieces (seven_point f) a pts /\
    all_pieces (fun p q => Rabs (seven_point f p q - four_point f p q) <= T \/ too_narrow p q) a pts /\
    (out_of_tolerance r = false <-> all_pieces (fun p q => ~ too_narrow p q) a pts).
Proof.
  intros f fuel a b tol opt r Hab Hg H. rewrite integrate_given in H by (now rewrite Rmin_left, Rmax_right by lra).
  destruct (integrate_result f fuel a b tol r Hab H) as [E|(l & T & HT & H1 & H2 & H3 & H4 & H5)]; [now left|right].
  destruct (chain_pieces f l a b H1 H2) as (C1 & C2 & C3 & C4). exists (map ib l), T. split; [exact C1|]. split; [exact HT|].
  split; [congruence|]. split; [now apply C3|]. rewrite H5. exact C4.
Qed.
Print Assumptions c19_partition.
Corollary in_tolerance_pieces f fuel a b tol opt r : a < b -> given f opt a b -> integrate f fuel a b tol opt = Some (Ok r) -> out_of_tolerance r = false ->
  integral r = kronrod13 f a b (f a) (f b) \/ exists pts T, increasing_to a pts b /\ T > 0 /\ integral r = over_pieces (seven_point f) a pts /\
    all_pieces (fun p q => Rabs (seven_point f p q - four_point f p q) <= T) a pts.
Proof.
  intros H1 H2 H3 H4. destruct (c19_partition f fuel a b tol opt r H1 H2 H3) as [E|(pts & T & P1 & P2 & P3 & P4 & P5)]; [now left|right].
  exists pts, T. repeat split; trivial. apply P5 in H4. clear - P4 H4. revert a P4 H4. induction pts as [|p ps IH]; cbn; [trivial|].
  intros a [[H|H] H'] [G G']; [|contradiction]. split; [exact H|now apply IH].
Qed.

(** Integrating backwards negates the integral; everything else reported is the same. *)
Theorem c19_reversed : forall f fuel a b tol opt, integrate f fuel b a tol opt =
  match integrate f fuel a b tol opt with
  | Some (Ok r) => Some (Ok (Result (- integral r) (uncertainty r) (out_of_tolerance r) (final_fa r) (final_fb r)))
  | o => o
  end.
Proof. intros. apply integrate_swap. Qed.
Print Assumptions c19_reversed.

(** The rules are exact up to degree 9 and 5, and the 13-point rule is exact up to degree 19 within the error of its decimal constants. *)
Theorem c19_exact_rules : forall c a b,
  ((length c <= 10)%nat -> is_integral (peval c) a b (seven_point (peval c) a b)) /\
  ((length c <= 6)%nat -> is_integral (peval c) a b (four_point (peval c) a b)).
Proof.
  intros c a b.
  assert (D : forall x, derivable_pt_lim (prim 0 c) x (peval c x)) by (intros x; pose proof (prim_derivable c 0 x) as D; cbn [pow] in D; now rewrite Rmult_1_l in D).
  split; intros Hc; exists (prim 0 c); (split; [exact D|]).
  - rewrite <- value_seven. exact (poly7_exact a b c Hc).
  - rewrite <- value_four. exact (poly4_exact a b c Hc).
Qed.
Print Assumptions c19_exact_rules.

(** A polynomial of degree at most 19, written around the middle of the interval and scaled by the half width. *)
Definition local_poly (c : list R) (a b x : R) : R := peval c ((x - (a + b) / 2) / ((b - a) / 2)).
Theorem c19_exact_13 : forall c a b, a < b -> (length c <= 20)%nat -> exists v, is_integral (local_poly c a b) a b v /\
  Rabs (kronrod13 (local_poly c a b) a b (local_poly c a b a) (local_poly c a b b) - v) <= (b - a) / 2 * / 10 ^ 15 * fold_right (fun x s => Rabs x + s) 0 c.
Proof.
  intros c a b Hab Hc. set (h := (b - a) / 2). assert (Hh : 0 < h) by (unfold h; lra). set (m := (a + b) / 2).
  set (F := fun x => h * prim 0 c ((x - m) / h)). exists (F b - F a). split.
  - exists F. split; [|reflexivity]. intros x. unfold F, local_poly. fold m h.
    assert (D : forall y, derivable_pt_lim (prim 0 c) y (peval c y)) by (intros y; pose proof (prim_derivable c 0 y) as D; cbn [pow] in D; now rewrite Rmult_1_l in D).
    assert (D1 : derivable_pt_lim (fun x => (x - m) / h) x (/ h)).
    { assert (D1 : derivable_pt_lim ((id - fct_cte m) * fct_cte (/ h))%F x ((1 - 0) * fct_cte (/ h) x + (id - fct_cte m)%F x * 0)).
      { apply derivable_pt_lim_mult; [apply derivable_pt_lim_minus; [apply derivable_pt_lim_id|apply derivable_pt_lim_const]|apply derivable_pt_lim_const]. }
      unfold fct_cte, mult_fct, minus_fct, id in D1. replace (/ h) with ((1 - 0) * / h + (x - m) * 0) by ring. exact D1. }
    pose proof (derivable_pt_lim_comp _ (prim 0 c) x _ _ D1 (D ((x - m) / h))) as D2.
    pose proof (derivable_pt_lim_scal _ h x _ D2) as D3. unfold mult_real_fct, comp in D3. replace (peval c ((x - m) / h)) with (h * (peval c ((x - m) / h) * / h)) by (field; lra). exact D3.
  - rewrite kronrod_local. fold h m. unfold F. replace ((b - m) / h) with 1 by (unfold m, h; field; lra). replace ((a - m) / h) with (-1) by (unfold m, h; field; lra).
    assert (E : K13 (fun s => local_poly c a b (m + s * h)) = K13 (fun s => s ^ 0 * peval c s)).
    { assert (P : forall s, local_poly c a b (m + s * h) = s ^ 0 * peval c s).
      { intros s. unfold local_poly. fold m h. replace ((m + s * h - m) / h) with s by (field; lra). cbn [pow]. ring. }
      unfold K13. rewrite !P. reflexivity. }
    rewrite E. pose proof (K13_poly c 0 ltac:(lia)) as B. unfold err13, norm1 in B.
    replace (h * K13 (fun s => s ^ 0 * peval c s) - (h * prim 0 c 1 - h * prim 0 c (-1))) with (h * (K13 (fun s => s ^ 0 * peval c s) - (prim 0 c 1 - prim 0 c (-1)))) by ring.
    rewrite Rabs_mult, (Rabs_right h) by lra. rewrite Rmult_assoc. apply Rmult_le_compat_l; lra.
Qed.
Print Assumptions c19_exact_13.

(** A polynomial of degree at most 9 comes out exactly whenever the interval is split. *)
Theorem c19_exact_result : forall c fuel a b tol opt r, (length c <= 10)%nat -> a < b -> given (peval c) opt a b ->
  integrate (peval c) fuel a b tol opt = Some (Ok r) ->
  integral r = kronrod13 (peval c) a b (peval c a) (peval c b) \/ is_integral (peval c) a b (integral r).
Proof.
  intros c fuel a b tol opt r Hc Hab Hg H. destruct (c19_partition _ _ _ _ _ _ _ Hab Hg H) as [E|(pts & T & P1 & P2 & P3 & _)]; [now left|right].
  assert (D : forall x, derivable_pt_lim (prim 0 c) x (peval c x)) by (intros x; pose proof (prim_derivable c 0 x) as D; cbn [pow] in D; now rewrite Rmult_1_l in D).
  exists (prim 0 c). split; [exact D|]. rewrite P3. clear - P1 Hc. revert a P1. induction pts as [|p ps IH]; intros a P1; cbn [increasing_to over_pieces] in *.
  - subst. lra.
  - destruct P1 as [_ P1]. rewrite (IH p P1), <- value_seven. pose proof (poly7_exact a p c Hc) as E. unfold rule7 in E. lra.
Qed.
Print Assumptions c19_exact_result.

(** Unusable tolerances and intervals are refused. *)
Theorem c19_refused : forall f fuel a b tol opt, (tol < / 2 ^ 52 \/ too_narrow (Rmin a b) (Rmax a b)) -> integrate f fuel a b tol opt = Some (Throw RuntimeError).
Proof.
  intros f fuel a b tol opt H. unfold integrate. change epsilon with (/ 2 ^ 52). destruct (Rlt_dec tol (/ 2 ^ 52)); [reflexivity|]. destruct H as [H|H]; [lra|].
  assert (N : forall p q fa fb, too_narrow p q -> negb (can_subdivide (evaluate f p q fa fb)) = true).
  { intros p q fa fb N. unfold can_subdivide. cbn [evaluate ia ib]. unfold too_narrow in N. destruct (Rlt_dec _ _) as [L|]; [|reflexivity]. unfold epsilon in L. lra. }
  destruct (Rlt_dec b a).
  - rewrite Rmin_right, Rmax_left in H by lra. cbv zeta. rewrite N by assumption. reflexivity.
  - rewrite Rmin_left, Rmax_right in H by lra. cbv zeta. rewrite N by assumption. reflexivity.
Qed.
Print Assumptions c19_refused.

(** End values given for the lower and the upper end change nothing. *)
Theorem c19_supplied_ends : forall f fuel a b tol opt, given f opt (Rmin a b) (Rmax a b) ->
  integrate f fuel a b tol opt = integrate f fuel a b tol (Options None None).
Proof. intros. now apply integrate_given. Qed.
Print Assumptions c19_supplied_ends.
(** But values given for the ends in the order of the arguments do, when the interval is reversed. *)
Theorem c19_supplied_ends_reversed_refuted : exists f fuel a b tol opt r1 r2, given f opt a b /\
  integrate f fuel a b tol opt = Some (Ok r1) /\ integrate f fuel a b tol (Options None None) = Some (Ok r2) /\ integral r1 <> integral r2.
Proof.
  exists (fun x => x), 0%nat, 1, 0, 1, (Options (Some 1) None).
  assert (S : forall fa fb, can_subdivide (evaluate (fun x => x) 0 1 fa fb) = true).
  { intros. unfold can_subdivide. cbn [evaluate ia ib]. destruct (Rlt_dec _ _) as [|n]; [reflexivity|]. exfalso. apply n. rewrite Rabs_R0, Rabs_R1, Rmax_right by lra. unfold epsilon. lra. }
  assert (V : forall fa fb, value (evaluate (fun x => x) 0 1 fa fb) = 77 / 2940 * (fa + fb) + (432 + 625 + 336) / 2940).
  { intros. cbn [evaluate value yv]. rewrite !pt_eq. unfold abscissa. cbn [nth]. field. }
  assert (V2 : forall fa fb, est2 (evaluate (fun x => x) 0 1 fa fb) = (fa + fb) / 12 + 5 / 12).
  { intros. cbn [evaluate est2 yv]. rewrite !pt_eq. unfold abscissa. cbn [nth]. field. }
  assert (K : forall fa fb, kronrod13 (fun x => x) 0 1 fa fb = 158271919734802 / 10 ^ 16 / 2 * (fa + fb) + (9841728080265200 / 10 ^ 16) / 2).
  { intros. unfold kronrod13. cbv zeta. cbn [yv]. rewrite !pt_eq. unfold abscissa. cbn [nth]. field. }
  assert (E : epsilon < 1) by (unfold epsilon; lra).
  unfold integrate. destruct (Rlt_dec 1 epsilon) as [L|_]; [lra|]. destruct (Rlt_dec 0 1) as [_|n]; [|lra]. cbv zeta. cbn [ofa ofb]. rewrite !S. cbn [negb].
  unfold badness. rewrite !V, !V2, !K.
  do 2 eexists. split; [split; [now right|now left]|].
  assert (B : forall x, Rabs x < / 4 -> forall y, (/ 4 <= Rabs y) -> forall T, 1 <= T -> Rabs x - T * Rabs y <= 0).
  { intros x Hx y Hy T HT. assert (1 * / 4 <= T * Rabs y) by (apply Rmult_le_compat; lra). lra. }
  assert (Hy : forall y, / 4 <= y -> / 4 <= Rabs (if Req_EM_T y 0 then 1 - 0 else y)).
  { intros y Hy. destruct (Req_EM_T y 0); [lra|]. rewrite Rabs_right; lra. }
  assert (HT : forall q, 1 <= (if (if Rlt_dec 0 q then if Rlt_dec q 1 then true else false else false) then 1 / q else 1)).
  { intros q. destruct (Rlt_dec 0 q); [|lra]. destruct (Rlt_dec q 1); [|lra]. apply (Rmult_le_reg_r q); [assumption|]. field_simplify; lra. }
  split; [|split].
  - destruct (Rle_dec _ 0) as [_|n]; [reflexivity|]. exfalso. apply n. apply B; [apply Rabs_def1; lra|apply Hy; lra|apply HT].
  - destruct (Rle_dec _ 0) as [_|n]; [reflexivity|]. exfalso. apply n. apply B; [apply Rabs_def1; lra|apply Hy; lra|apply HT].
  - cbn [integral]. lra.
Qed.
Print Assumptions c19_supplied_ends_reversed_refuted.

(** A non-negative integrand never gives a negative integral. *)
Lemma weights_13 f a b : a < b -> (forall x, a <= x <= b -> 0 <= f x) -> 0 <= kronrod13 f a b (f a) (f b).
Proof.
  intros Hab Hf. rewrite kronrod_local. apply Rmult_le_pos; [lra|]. unfold K13.
  assert (P : forall s, -1 <= s <= 1 -> 0 <= f ((a + b) / 2 + s * ((b - a) / 2))).
  { intros s Hs. apply Hf. assert (0 <= (b - a) / 2) by lra. split; [|]; nra. }
  assert (A : 0 <= alpha <= 1) by (pose proof alpha_sq; assert (0 <= alpha) by apply sqrt_pos; split; [assumption|]; nra).
  pose proof beta_range as B.
  pose proof (P 1 ltac:(lra)). pose proof (P (-1) ltac:(lra)). pose proof (P 0 ltac:(lra)). pose proof (P alpha ltac:(lra)). pose proof (P (- alpha) ltac:(lra)).
  pose proof (P beta ltac:(lra)). pose proof (P (- beta) ltac:(lra)).
  pose proof (P x1 ltac:(unfold x1; lra)). pose proof (P (- x1) ltac:(unfold x1; lra)). pose proof (P x2 ltac:(unfold x2; lra)). pose proof (P (- x2) ltac:(unfold x2; lra)).
  pose proof (P x3 ltac:(unfold x3; lra)). pose proof (P (- x3) ltac:(unfold x3; lra)). lra.
Qed.
Lemma weights_7 f a b : a < b -> (forall x, a <= x <= b -> 0 <= f x) -> 0 <= seven_point f a b.
Proof.
  intros Hab Hf. unfold seven_point. cbv zeta.
  assert (A : 0 <= sqrt (2 / 3) <= 1) by (pose proof alpha_sq as E; unfold alpha in E; assert (0 <= sqrt (2 / 3)) by apply sqrt_pos; split; [assumption|]; nra).
  assert (S5 : sqrt 5 <> 0) by (apply Rgt_not_eq, sqrt_lt_R0; lra).
  pose proof beta_range as B. unfold beta in B. replace ((b - a) / 2 / sqrt 5) with (1 / sqrt 5 * ((b - a) / 2)) by (field; assumption).
  assert (P : forall s, -1 <= s <= 1 -> 0 <= f ((a + b) / 2 + s * ((b - a) / 2))).
  { intros s Hs. apply Hf. assert (0 <= (b - a) / 2) by lra. split; [|]; nra. }
  pose proof (P (sqrt (2 / 3)) ltac:(lra)). pose proof (P (- sqrt (2 / 3)) ltac:(lra)) as P1. pose proof (P (1 / sqrt 5) ltac:(lra)). pose proof (P (- (1 / sqrt 5)) ltac:(lra)) as P2.
  replace ((a + b) / 2 + - sqrt (2 / 3) * ((b - a) / 2)) with ((a + b) / 2 - sqrt (2 / 3) * ((b - a) / 2)) in P1 by ring.
  replace ((a + b) / 2 + - (1 / sqrt 5) * ((b - a) / 2)) with ((a + b) / 2 - 1 / sqrt 5 * ((b - a) / 2)) in P2 by ring.
  pose proof (Hf a ltac:(lra)). pose proof (Hf b ltac:(lra)). pose proof (Hf ((a + b) / 2) ltac:(lra)).
  apply Rmult_le_pos; [lra|]. lra.
Qed.
Lemma increasing_le pts : forall a b, increasing_to a pts b -> a <= b.
Proof. induction pts as [|p ps IH]; cbn; intros a b H; [lra|]. destruct H as [H1 H2]. specialize (IH _ _ H2). lra. Qed.
Theorem c19_nonnegative : forall f fuel a b tol opt r, a < b -> given f opt a b -> (forall x, a <= x <= b -> 0 <= f x) ->
  integrate f fuel a b tol opt = Some (Ok r) -> 0 <= integral r.
Proof.
  intros f fuel a b tol opt r Hab Hg Hf H. destruct (c19_partition _ _ _ _ _ _ _ Hab Hg H) as [->|(pts & T & P1 & P2 & -> & _)]; [now apply weights_13|].
  clear - P1 Hf. revert a Hf P1. induction pts as [|p ps IH]; intros a Hf P1; cbn [increasing_to over_pieces] in *; [lra|].
  destruct P1 as [P1 P2]. pose proof (increasing_le _ _ _ P2). apply Rplus_le_le_0_compat.
  - apply weights_7; [assumption|]. intros x Hx. apply Hf. lra.
  - apply IH; [|exact P2]. intros x Hx. apply Hf. lra.
Qed.
Print Assumptions c19_nonnegative.

(** Non-vacuity: a constant over [1, 2] is integrated at once, to within the rounding of the constants. *)
Example c19_case : exists r, integrate (fun _ => 1) 0 1 2 (1 / 1000) (Options (Some 1) None) = Some (Ok r) /\ given (fun _ => 1) (Options (Some 1) None) 1 2 /\ Rabs (integral r - 1) <= 1 / 10 ^ 14.
Proof.
  assert (S : forall fa fb, can_subdivide (evaluate (fun _ => 1) 1 2 fa fb) = true).
  { intros. unfold can_subdivide. cbn [evaluate ia ib]. destruct (Rlt_dec _ _) as [|n]; [reflexivity|]. exfalso. apply n. rewrite !Rabs_right by lra. rewrite Rmax_right by lra. unfold epsilon. lra. }
  unfold integrate. destruct (Rlt_dec _ _) as [L|_]; [unfold epsilon in L; lra|]. destruct (Rlt_dec 2 1) as [L|_]; [lra|]. cbv zeta. cbn [ofa ofb]. rewrite S. cbn [negb].
  destruct (Rle_dec _ 0) as [_|n].
  - eexists. split; [reflexivity|]. split; [split; [now right|now left]|]. cbn [integral]. unfold kronrod13. cbn [yv]. apply Rabs_le. lra.
  - exfalso. apply n. unfold badness. cbn [evaluate value est2 yv]. match goal with |- Rabs ?x - ?t <= 0 => replace x with 0 by field; assert (0 <= t) end; [|rewrite Rabs_R0; lra].
    apply Rmult_le_pos; [|apply Rabs_pos]. match goal with |- 0 <= if ?c then ?x / ?q else ?y => destruct c eqn:Ec end; [|lra].
    match type of Ec with (if Rlt_dec 0 ?q then _ else _) = _ => destruct (Rlt_dec 0 q); [|discriminate] end.
    left. apply Rdiv_lt_0_compat; lra.
Qed.

(** ** C20 *)
Lemma sqrt3 : sqrt 3 <> 0 /\ (1 / sqrt 3) * (1 / sqrt 3) = 1 / 3.
Proof. assert (H : sqrt 3 * sqrt 3 = 3) by (apply sqrt_sqrt; lra). assert (H0 : sqrt 3 <> 0) by (intros E; rewrite E in H; lra). split; [assumption|]. replace (1 / sqrt 3 * (1 / sqrt 3)) with (1 / (sqrt 3 * sqrt 3)) by (field; assumption). rewrite H. reflexivity. Qed.
Lemma agree_same e tol : agree e e tol = true.
Proof. unfold agree. rewrite Rmax_left, Rmin_left by lra. destruct (Req_EM_T (Rabs e) 0); destruct (Req_EM_T (Rabs e) (Rabs e)); try contradiction; [reflexivity|]. now destruct (Rlt_dec _ _). Qed.
Definition trapezoid (f : R -> R) (a b : R) : R := (b - a) / 2 * (f a + f b).
Definition gauss2 (f : R -> R) (a b : R) : R := (b - a) / 2 * (f ((a + b) / 2 - (b - a) / 2 / sqrt 3) + f ((a + b) / 2 + (b - a) / 2 / sqrt 3)).
Definition simpson (f : R -> R) (a b : R) : R := (b - a) / 6 * (f a + 4 * f ((a + b) / 2) + f b).
Lemma fast_points (f : R -> R) a b :
  let y := fun i => f (midpoint a b + fast_abscissa i * ((b - a) / 2)) in
  y 0%nat = f a /\ y 4%nat = f b /\ y 2%nat = f ((a + b) / 2) /\ y 1%nat = f ((a + b) / 2 - (b - a) / 2 / sqrt 3) /\ y 3%nat = f ((a + b) / 2 + (b - a) / 2 / sqrt 3).
Proof.
  destruct sqrt3 as [S3 _]. cbv zeta. rewrite !mid_eq. unfold fast_abscissa. cbn [nth]. repeat split; f_equal; field; assumption.
Qed.
Lemma fast_cases f fuel a b tol v : fast_int f fuel a b tol = Some (Ok v) ->
  (v = trapezoid f a b /\ agree (f a) (f b) tol = true) \/ v = gauss2 f a b \/ v = simpson f a b \/
  (agree (f ((a + b) / 2 - (b - a) / 2 / sqrt 3) + f ((a + b) / 2 + (b - a) / 2 / sqrt 3)) ((f a + 4 * f ((a + b) / 2) + f b) / 3) tol = false /\
   exists r, integrate f fuel a b tol (Options (Some (f a)) (Some (f b))) = Some (Ok r) /\ v = integral r).
Proof.
  destruct (fast_points f a b) as (E0 & E4 & E2 & E1 & E3). unfold fast_int. cbv zeta. rewrite E0, E1, E2, E3, E4.
  destruct (agree (f a) (f b) tol) eqn:A1; [intros [= <-]; left; split; reflexivity|].
  destruct (agree _ (f a + f b) tol) eqn:A2; [intros [= <-]; right; left; reflexivity|].
  destruct (agree _ ((f a + 4 * f ((a + b) / 2) + f b) / 3) tol) eqn:A3; [intros [= <-]; right; right; left; unfold simpson; field|].
  destruct (integrate _ _ _ _ _ _) as [[r| |]|] eqn:Ei; cbn; try discriminate. intros [= <-]. right; right; right. split; [first [exact A3|reflexivity]|]. now exists r.
Qed.
(** Whatever the integrand, the result is the value of one of the four rules. *)
Theorem c20_documented_rules : forall f fuel a b tol v, a <= b -> fast_int f fuel a b tol = Some (Ok v) ->
  v = trapezoid f a b \/ v = gauss2 f a b \/ v = simpson f a b \/ exists r, integrate f fuel a b tol (Options None None) = Some (Ok r) /\ v = integral r.
Proof.
  intros f fuel a b tol v Hab H. destruct (fast_cases _ _ _ _ _ _ H) as [[E _]|[E|[E|(_ & r & E1 & E2)]]]; auto.
  right; right; right. exists r. split; [|exact E2]. rewrite <- E1. symmetry. apply integrate_given. rewrite Rmin_left, Rmax_right by assumption. split; now right.
Qed.
Print Assumptions c20_documented_rules.
(** An affine integrand is integrated exactly, at once, at every tolerance. *)
Theorem c20_affine : forall p q a b tol fuel, fast_int (fun x => p + q * x) fuel a b tol = Some (Ok (p * (b - a) + q * (b * b - a * a) / 2)).
Proof.
  intros p q a b tol fuel. set (f := fun x => p + q * x). destruct (fast_points f a b) as (E0 & E4 & E2 & E1 & E3). unfold fast_int. cbv zeta. rewrite E0, E1, E2, E3, E4.
  destruct sqrt3 as [S3 _].
  destruct (agree (f a) (f b) tol); [do 2 f_equal; unfold f; field|].
  replace (f ((a + b) / 2 - (b - a) / 2 / sqrt 3) + f ((a + b) / 2 + (b - a) / 2 / sqrt 3)) with (f a + f b) by (unfold f; field; assumption).
  rewrite agree_same. do 2 f_equal. unfold f. field.
Qed.
Print Assumptions c20_affine.
(** Its bin average is the value at the middle of the bin. *)
Theorem c20_affine_average : forall p q a b tol fuel, a <> b ->
  exists v, fast_int (fun x => p + q * x) fuel a b tol = Some (Ok v) /\ v / (b - a) = p + q * ((a + b) / 2).
Proof. intros. eexists. split; [apply c20_affine|]. field. lra. Qed.
Print Assumptions c20_affine_average.
(** A cubic is integrated exactly unless its values at the two ends have magnitudes within the tolerance. *)
Theorem c20_cubic : forall c fuel a b tol v, (length c <= 4)%nat -> fast_int (peval c) fuel a b tol = Some (Ok v) ->
  is_integral (peval c) a b v \/ (v = trapezoid (peval c) a b /\ agree (peval c a) (peval c b) tol = true).
Proof.
  intros c fuel a b tol v Hc H. destruct sqrt3 as [S3 Sq].
  set (s := 1 / sqrt 3) in *. assert (Pm : (a + b) / 2 - (b - a) / 2 / sqrt 3 = (a + b) / 2 - s * ((b - a) / 2)) by (unfold s; field; assumption).
  assert (Pp : (a + b) / 2 + (b - a) / 2 / sqrt 3 = (a + b) / 2 + s * ((b - a) / 2)) by (unfold s; field; assumption).
  assert (Hp : exists c0 c1 c2 c3, forall x, peval c x = c0 + x * (c1 + x * (c2 + x * c3))).
  { destruct c as [|c0 [|c1 [|c2 [|c3 [|c4 c]]]]]; cbn [length] in Hc; try lia; cbn [peval].
    - exists 0, 0, 0, 0. intros; ring. - exists c0, 0, 0, 0. intros; ring. - exists c0, c1, 0, 0. intros; ring. - exists c0, c1, c2, 0. intros; ring. - exists c0, c1, c2, c3. intros; ring. }
  destruct Hp as (c0 & c1 & c2 & c3 & Hp).
  assert (D : forall x, derivable_pt_lim (prim 0 c) x (peval c x)) by (intros x; pose proof (prim_derivable c 0 x) as D; cbn [pow] in D; now rewrite Rmult_1_l in D).
  assert (X : prim 0 c b - prim 0 c a = simpson (peval c) a b).
  { rewrite <- (poly4_exact a b c ltac:(lia)). rewrite rule4_local. unfold simpson. rewrite !Hp. pose proof beta_sq as B2.
    set (m := (a + b) / 2). set (h := (b - a) / 2). replace (b - a) with (2 * h) by (unfold h; field). replace b with (m + h) by (unfold m, h; field). replace a with (m - h) by (unfold m, h; field).
    apply Rminus_diag_uniq. ring_simplify. 
    replace (beta ^ 2) with (1 / 5) by (rewrite <- B2; ring). field. }
  assert (G : gauss2 (peval c) a b = simpson (peval c) a b).
  { unfold gauss2, simpson. rewrite Pm, Pp, !Hp. set (m := (a + b) / 2). set (h := (b - a) / 2). replace (b - a) with (2 * h) by (unfold h; field). replace b with (m + h) by (unfold m, h; field). replace a with (m - h) by (unfold m, h; field).
    apply Rminus_diag_uniq. ring_simplify. replace (s ^ 2) with (1 / 3) by (rewrite <- Sq; ring). field. }
  destruct (fast_cases _ _ _ _ _ _ H) as [[E A]|[E|[E|(A & _)]]].
  - right. now split.
  - left. exists (prim 0 c). split; [exact D|]. congruence.
  - left. exists (prim 0 c). split; [exact D|]. congruence.
  - exfalso. rewrite Pm, Pp in A. replace ((peval c a + 4 * peval c ((a + b) / 2) + peval c b) / 3) with (peval c ((a + b) / 2 - s * ((b - a) / 2)) + peval c ((a + b) / 2 + s * ((b - a) / 2))) in A.
    + rewrite agree_same in A. discriminate.
    + rewrite !Hp. set (m := (a + b) / 2). set (h := (b - a) / 2). replace b with (m + h) by (unfold m, h; field). replace a with (m - h) by (unfold m, h; field).
      apply Rminus_diag_uniq. field_simplify. replace (s ^ 2) with (1 / 3) by (rewrite <- Sq; ring). field.
Qed.
Print Assumptions c20_cubic.
(** A non-negative integrand never gives a negative bin average. *)
Theorem c20_nonnegative : forall f fuel a b tol v, a < b -> (forall x, a <= x <= b -> 0 <= f x) -> fast_int f fuel a b tol = Some (Ok v) -> 0 <= v / (b - a).
Proof.
  intros f fuel a b tol v Hab Hf H. apply Rmult_le_pos; [|left; apply Rinv_0_lt_compat; lra].
  destruct sqrt3 as [S3 Sq]. assert (Sp : 0 <= 1 / sqrt 3) by (left; apply Rdiv_lt_0_compat; [lra|apply sqrt_lt_R0; lra]).
  assert (S1 : 1 / sqrt 3 <= 1) by nra.
  pose proof (Hf a ltac:(lra)). pose proof (Hf b ltac:(lra)). pose proof (Hf ((a + b) / 2) ltac:(lra)).
  destruct (c20_documented_rules f fuel a b tol v ltac:(lra) H) as [->|[->|[->|(r & E & ->)]]].
  - unfold trapezoid. apply Rmult_le_pos; lra.
  - unfold gauss2. replace ((b - a) / 2 / sqrt 3) with (1 / sqrt 3 * ((b - a) / 2)) by (field; assumption). apply Rmult_le_pos; [lra|]. apply Rplus_le_le_0_compat; apply Hf; split; nra.
  - unfold simpson. apply Rmult_le_pos; lra.
  - apply (c19_nonnegative f fuel a b tol (Options None None) r); trivial. split; now left.
Qed.
Print Assumptions c20_nonnegative.
(** The agreement check compares magnitudes only, so estimates of opposite sign "agree": for 11/2 + x - 27 x^2 + 45/2 x^4 over [-1, 1] the two
    estimates are -2 and 2, the first is returned, and the integral is 2. *)
Theorem c20_sign_ignored_refuted : exists f a b tol v w, a < b /\ 0 < tol < 1 / 100 /\ fast_int f 0 a b tol = Some (Ok v) /\ is_integral f a b w /\ v < 0 < w.
Proof.
  set (c := [11 / 2; 1; -27; 0; 45 / 2]). exists (peval c), (-1), 1, (1 / 1000), (-2), 2.
  split; [lra|]. split; [lra|]. split; [|split; [|lra]].
  - destruct (fast_points (peval c) (-1) 1) as (E0 & E4 & E2 & E1 & E3). unfold fast_int. cbv zeta. rewrite E0, E1, E2, E3, E4. clear E0 E1 E2 E3 E4. destruct sqrt3 as [S3 Sq].
    replace ((-1 + 1) / 2 - (1 - -1) / 2 / sqrt 3) with (- (1 / sqrt 3)) by (field; assumption). replace ((-1 + 1) / 2 + (1 - -1) / 2 / sqrt 3) with (1 / sqrt 3) by (field; assumption).
    replace (peval c (-1)) with 0 by (unfold c; cbn [peval]; field). replace (peval c 1) with 2 by (unfold c; cbn [peval]; field).
    assert (EL : peval c (- (1 / sqrt 3)) + peval c (1 / sqrt 3) = -2).
    { set (s := 1 / sqrt 3) in *. unfold c. cbn [peval].
      replace (11 / 2 + - s * (1 + - s * (-27 + - s * (0 + - s * (45 / 2 + - s * 0)))) + (11 / 2 + s * (1 + s * (-27 + s * (0 + s * (45 / 2 + s * 0)))))) with (11 - 54 * (s * s) + 45 * ((s * s) * (s * s))) by field. rewrite Sq. field. }
    rewrite EL. unfold agree. rewrite !Rabs_R0, (Rabs_right 2), (Rabs_right (0 + 2)), (Rabs_left (-2)) by lra. rewrite (Rmax_right 0 2), (Rmin_left 0 2) by lra.
    destruct (Req_EM_T 0 0) as [_|n]; [|now elim n]. destruct (Req_EM_T 2 0) as [E|_]; [lra|].
    rewrite Rmax_left, Rmin_right by lra. destruct (Req_EM_T (0 + 2) 0) as [E|_]; [lra|]. destruct (Rlt_dec _ _) as [_|n]; [do 2 f_equal; field|].
    elim n. replace (- -2 / (0 + 2) - 1) with 0 by field. lra.
  - exists (prim 0 c). split; [intros x; pose proof (prim_derivable c 0 x) as D; cbn [pow] in D; now rewrite Rmult_1_l in D|]. unfold c. cbn [prim pow INR]. field.
Qed.
Print Assumptions c20_sign_ignored_refuted.
(** Non-vacuity for the cubic: x^3 over [0, 1]. *)
Example c20_case : fast_int (peval [0; 0; 0; 1]) 0 0 1 (1 / 1000) = Some (Ok (1 / 4)).
Proof.
  set (c := [0; 0; 0; 1]). destruct (fast_points (peval c) 0 1) as (E0 & E4 & E2 & E1 & E3). unfold fast_int. cbv zeta. rewrite E0, E1, E2, E3, E4. clear E0 E1 E2 E3 E4. destruct sqrt3 as [S3 Sq].
  replace (peval c 0) with 0 by (unfold c; cbn [peval]; ring). replace (peval c 1) with 1 by (unfold c; cbn [peval]; ring). replace (peval c ((0 + 1) / 2)) with (1 / 8) by (unfold c; cbn [peval]; field).
  assert (EL : peval c ((0 + 1) / 2 - (1 - 0) / 2 / sqrt 3) + peval c ((0 + 1) / 2 + (1 - 0) / 2 / sqrt 3) = 1 / 2).
  { replace ((0 + 1) / 2 - (1 - 0) / 2 / sqrt 3) with (1 / 2 - 1 / sqrt 3 / 2) by (field; assumption). replace ((0 + 1) / 2 + (1 - 0) / 2 / sqrt 3) with (1 / 2 + 1 / sqrt 3 / 2) by (field; assumption).
    set (s := 1 / sqrt 3) in *. unfold c. cbn [peval]. match goal with |- ?l = _ => replace l with (1 / 4 + 3 / 4 * (s * s)) by field end. rewrite Sq. field. }
  rewrite EL. unfold agree. rewrite !Rabs_R0, Rabs_R1, (Rabs_right (1 / 2)), (Rabs_right (0 + 1)), (Rabs_right ((0 + 4 * (1 / 8) + 1) / 3)) by lra.
  rewrite (Rmax_right 0 1), (Rmin_left 0 1), (Rmax_right (1 / 2) (0 + 1)), (Rmin_left (1 / 2) (0 + 1)) by lra.
  destruct (Req_EM_T 0 0) as [_|n]; [|now elim n]. destruct (Req_EM_T 1 0) as [E|_]; [lra|]. destruct (Req_EM_T (1 / 2) 0) as [E|_]; [lra|].
  destruct (Rlt_dec ((0 + 1) / (1 / 2) - 1) (1 / 1000)) as [L|_]; [exfalso; replace ((0 + 1) / (1 / 2) - 1) with 1 in L by field; lra|].
  destruct (Req_EM_T (0 + 1) (1 / 2)) as [E|_]; [lra|]. replace ((0 + 4 * (1 / 8) + 1) / 3) with (1 / 2) by field. rewrite Rmax_left, Rmin_left by lra.
  destruct (Req_EM_T (1 / 2) 0) as [E|_]; [lra|]. destruct (Rlt_dec _ _) as [_|n]; [do 2 f_equal; field|]. elim n. replace (1 / 2 / (1 / 2) - 1) with 0 by field. lra.
Qed.
