(** C99: straight lines between two nodes, with rounding.  The exact formula is stated over the real numbers. *)
From Coq Require Import List Arith ZArith Reals Bool Lia Lra Psatz.
From Coq Require Import SpecFloat.
From Flocq Require Import Zaux Raux Defs Generic_fmt Float_prop Round_NE FLT Ulp Relative Plus_error BinarySingleNaN.
From Verif Require Import Err DblModel DblSpec DblProofs DblGridModel DblGridProps DblReal DblGridRealProps DblProps.
Import ListNotations.
Local Open Scope R_scope.
#[local] Existing Instance Hprec.
#[local] Existing Instance Hmax.

Lemma u_range : 0 < unit_roundoff <= / 1000000.
Proof. unfold unit_roundoff. cbn. lra. Qed.
Lemma eta_pos : 0 < least_error.
Proof. apply bpow_gt_0. Qed.
Lemma eta_small : least_error <= unit_roundoff / 1000000.
Proof.
  apply Rle_trans with (bpow radix2 (-100)); [apply bpow_le; lia|]. unfold unit_roundoff. cbn. lra.
Qed.
Lemma double_format x : is_double x -> generic_format radix2 (FLT_exp (-1074) 53) (value x).
Proof. intro X. destruct (bits_of x X) as [a ->]. rewrite value_bits. apply generic_format_B2R. Qed.
Lemma rnd_add_err x y : is_double x -> is_double y -> Rabs (rnd (value x + value y) - (value x + value y)) <= unit_roundoff * Rabs (value x + value y).
Proof.
  intros X Y.
  destruct (FLT_plus_error_N_ex radix2 (-1074) 53 (fun t => negb (Z.even t)) (value x) (value y) (double_format x X) (double_format y Y)) as (eps & He & E).
  unfold rnd. rewrite fexp_flt, E. replace ((value x + value y) * (1 + eps) - (value x + value y)) with (eps * (value x + value y)) by ring.
  rewrite Rabs_mult. apply Rmult_le_compat_r; [apply Rabs_pos|]. eapply Rle_trans; [exact He|].
  assert (U : u_ro radix2 53 = unit_roundoff) by (unfold u_ro, unit_roundoff; cbn; lra). rewrite U.
  pose proof u_range. apply Rmult_le_reg_r with (1 + unit_roundoff); [lra|]. unfold Rdiv. rewrite Rmult_assoc, Rinv_l by lra. nra.
Qed.
Lemma rnd_sub_err x y : is_double x -> is_double y -> Rabs (rnd (value x - value y) - (value x - value y)) <= unit_roundoff * Rabs (value x - value y).
Proof.
  intros X Y.
  destruct (FLT_plus_error_N_ex radix2 (-1074) 53 (fun t => negb (Z.even t)) (value x) (- value y) (double_format x X) (generic_format_opp _ _ _ (double_format y Y))) as (eps & He & E).
  change (value x + - value y) with (value x - value y) in E.
  unfold rnd. rewrite fexp_flt, E. replace ((value x - value y) * (1 + eps) - (value x - value y)) with (eps * (value x - value y)) by ring.
  rewrite Rabs_mult. apply Rmult_le_compat_r; [apply Rabs_pos|]. eapply Rle_trans; [exact He|].
  assert (U : u_ro radix2 53 = unit_roundoff) by (unfold u_ro, unit_roundoff; cbn; lra). rewrite U.
  pose proof u_range. apply Rmult_le_reg_r with (1 + unit_roundoff); [lra|]. unfold Rdiv. rewrite Rmult_assoc, Rinv_l by lra. nra.
Qed.
Lemma rnd_1 : rnd 1 = 1.
Proof. rewrite <- value_one. apply rnd_double. reflexivity. Qed.
Lemma double_one : is_double one. Proof. reflexivity. Qed.
Lemma rnd_abs_le x y : is_double y -> Rabs x <= Rabs (value y) -> Rabs (rnd x) <= Rabs (value y).
Proof.
  intros Y H. assert (E : rnd (Rabs (value y)) = Rabs (value y)) by (apply round_generic; [apply valid_rnd_N|apply generic_format_abs, double_format, Y]).
  assert (E' : rnd (- Rabs (value y)) = - Rabs (value y)) by (apply round_generic; [apply valid_rnd_N|apply generic_format_opp, generic_format_abs, double_format, Y]).
  apply Rabs_le_inv in H. apply Rabs_le. rewrite <- E' at 1. rewrite <- E at 2. split; apply rnd_le; lra.
Qed.
Lemma bpow_double e : (1 <= e)%Z -> 2 * bpow radix2 (e - 1) = bpow radix2 e.
Proof. intro H. change 2 with (bpow radix2 1). rewrite <- bpow_plus. f_equal. lia. Qed.
Definition large : R := bpow radix2 1000.
Lemma large_2 : 2 * large = bpow radix2 1001.
Proof. unfold large. apply (bpow_double 1001). lia. Qed.

(** ** The weight of the upper node, tools as in LinInter and EvalFlavor *)
Definition weight (x xM xP : double) : double := ddiv (dsub x xM) (dsub xP xM).
Section Weight.
Variables x xM xP : double.
Hypothesis (Dx : is_double x) (DM : is_double xM) (DP : is_double xP) (Fx : finite x) (FM : finite xM) (FP : finite xP).
Hypothesis (B : value xM <= value x <= value xP) (L : value xM < value xP) (SM : Rabs (value xM) <= large) (SP : Rabs (value xP) <= large).
Let t := (value x - value xM) / (value xP - value xM).

Lemma weight_facts : is_double (weight x xM xP) /\ finite (weight x xM xP) /\ 0 <= value (weight x xM xP) <= 1 /\
  Rabs (value (weight x xM xP) - t) <= 4 * unit_roundoff /\ (value x = value xM -> value (weight x xM xP) = 0) /\ (value x = value xP -> value (weight x xM xP) = 1).
Proof.
  pose proof u_range as U. pose proof eta_pos as N0. pose proof eta_small as N1. set (u := unit_roundoff) in *.
  apply Rabs_le_inv in SM. apply Rabs_le_inv in SP. pose proof large_2 as L2.
  assert (T1 : Rabs (value x - value xM) <= bpow radix2 1001) by (rewrite <- L2; apply Rabs_le; lra).
  assert (T2 : Rabs (value xP - value xM) <= bpow radix2 1001) by (rewrite <- L2; apply Rabs_le; lra).
  destruct (sub_value x xM Dx DM Fx FM (rnd_top _ T1)) as (Fa & Va). destruct (sub_value xP xM DP DM FP FM (rnd_top _ T2)) as (Fd & Vd).
  pose proof (rnd_sub_err x xM Dx DM) as Ea. pose proof (rnd_sub_err xP xM DP DM) as Ed. rewrite <- Va in Ea. rewrite <- Vd in Ed.
  set (a := value x - value xM) in *. set (d := value xP - value xM) in *. fold u in Ea, Ed.
  assert (Ha : 0 <= a) by (unfold a; lra). assert (Hd : 0 < d) by (unfold d; lra). assert (Had : a <= d) by (unfold a, d; lra).
  rewrite (Rabs_pos_eq a) in Ea by lra. rewrite (Rabs_pos_eq d) in Ed by lra. apply Rabs_le_inv in Ea. apply Rabs_le_inv in Ed.
  set (a' := value (dsub x xM)) in *. set (d' := value (dsub xP xM)) in *.
  assert (Ud : 0 < u * d <= / 1000000 * d) by (split; [apply Rmult_lt_0_compat; lra|apply Rmult_le_compat_r; lra]).
  assert (Ua : 0 <= u * a <= u * d) by (split; [apply Rmult_le_pos; lra|apply Rmult_le_compat_l; lra]).
  assert (Hd' : 0 < d') by lra. assert (Ha' : 0 <= a') by (rewrite Va, <- rnd_0; apply rnd_le; exact Ha).
  assert (Had' : a' <= d') by (rewrite Va, Vd; now apply rnd_le).
  assert (Q : 0 <= a' / d' <= 1).
  { split; [apply Rmult_le_pos; [lra|left; now apply Rinv_0_lt_compat]|]. apply Rmult_le_reg_r with d'; [lra|]. unfold Rdiv. rewrite Rmult_assoc, Rinv_l; lra. }
  assert (Q' : 0 <= rnd (a' / d') <= 1) by (split; [apply Rle_trans with (rnd 0); [right; symmetry; apply rnd_0|apply rnd_le; lra]|apply Rle_trans with (rnd 1); [apply rnd_le; lra|right; apply rnd_1]]).
  assert (Tq : Rabs (rnd (a' / d')) < top).
  { apply Rabs_def1; [apply Rle_lt_trans with 1; [lra|]|apply Rlt_le_trans with (-(1)); [|lra]; apply Ropp_lt_contravar]; apply (bpow_lt radix2 0 1024); lia. }
  destruct (div_value _ _ (sub_double x xM Dx DM) (sub_double xP xM DP DM) Fa Fd ltac:(fold d'; lra) Tq) as (Fw & Vw). fold (weight x xM xP) in Fw, Vw.
  fold a' d' in Vw. split; [apply div_double; apply sub_double; assumption|]. split; [exact Fw|]. rewrite Vw. split; [exact Q'|].
  split; [|split].
  - pose proof (rnd_err (a' / d')) as Eq. fold u in Eq. rewrite (Rabs_pos_eq (a' / d')) in Eq by lra.
    assert (D : Rabs (a' / d' - t) <= 2.5 * u).
    { unfold t. fold d. replace (a' / d' - a / d) with ((a' * d - a * d') / (d' * d)) by (field; lra).
      assert (P : 0 < d' * d) by nra. unfold Rdiv. rewrite Rabs_mult, (Rabs_pos_eq (/ _)) by (left; now apply Rinv_0_lt_compat).
      apply Rmult_le_reg_r with (d' * d); [exact P|]. rewrite Rmult_assoc, Rinv_l, Rmult_1_r by lra.
      replace (a' * d - a * d') with ((a' - a) * d - a * (d' - d)) by ring.
      assert (M1 : Rabs ((a' - a) * d) <= u * d * d) by (rewrite Rabs_mult, (Rabs_pos_eq d) by lra; apply Rmult_le_compat_r; [lra|]; apply Rabs_le; lra).
      assert (M2 : Rabs (a * (d' - d)) <= d * (u * d)) by (rewrite Rabs_mult, (Rabs_pos_eq a) by lra; apply Rmult_le_compat; [lra|apply Rabs_pos|lra|apply Rabs_le; lra]).
      assert (M3 : 2 * (u * d * d) <= 2.5 * u * (d' * d)).
      { replace (2 * (u * d * d)) with (u * d * (2 * d)) by ring. replace (2.5 * u * (d' * d)) with (u * d * (2.5 * d')) by ring. apply Rmult_le_compat_l; lra. }
      unfold Rminus at 1. eapply Rle_trans; [apply Rabs_triang|]. rewrite Rabs_Ropp. lra. }
    replace (rnd (a' / d') - t) with ((rnd (a' / d') - a' / d') + (a' / d' - t)) by ring. eapply Rle_trans; [apply Rabs_triang|].
    assert (u * (a' / d') <= u * 1) by (apply Rmult_le_compat_l; lra). lra.
  - intro E. assert (Z : a = 0) by (unfold a; lra). assert (Z' : a' = 0) by (rewrite Va, Z; apply rnd_0). rewrite Z'. unfold Rdiv. rewrite Rmult_0_l. apply rnd_0.
  - intro E. assert (Z : a = d) by (unfold a, d; lra). assert (Z' : a' = d') by (rewrite Va, Vd, Z; reflexivity). rewrite Z'. unfold Rdiv. rewrite Rinv_r by lra. apply rnd_1.
Qed.

Lemma rest_facts : is_double (dsub one (weight x xM xP)) /\ finite (dsub one (weight x xM xP)) /\ 0 <= value (dsub one (weight x xM xP)) <= 1 /\
  Rabs (value (dsub one (weight x xM xP)) - (1 - t)) <= 5 * unit_roundoff /\ (value x = value xM -> value (dsub one (weight x xM xP)) = 1) /\ (value x = value xP -> value (dsub one (weight x xM xP)) = 0).
Proof.
  destruct weight_facts as (Dw & Fw & Rw & Ew & E0 & E1). set (w := weight x xM xP) in *. pose proof u_range as U.
  assert (T : Rabs (rnd (value one - value w)) < top).
  { apply rnd_top. rewrite value_one. apply Rle_trans with 1; [apply Rabs_le; lra|]. apply (bpow_le radix2 0 1001). lia. }
  destruct (sub_value one w double_one Dw I Fw T) as (Fr & Vr). pose proof (rnd_sub_err one w double_one Dw) as Er. rewrite <- Vr in Er.
  split; [now apply sub_double|]. split; [exact Fr|]. rewrite value_one in *.
  split; [rewrite Vr; split; [apply Rle_trans with (rnd 0); [right; symmetry; apply rnd_0|apply rnd_le; lra]|apply Rle_trans with (rnd 1); [apply rnd_le; lra|right; apply rnd_1]]|].
  split; [|split].
  - replace (value (dsub one w) - (1 - t)) with ((value (dsub one w) - (1 - value w)) + - (value w - t)) by ring.
    eapply Rle_trans; [apply Rabs_triang|]. rewrite Rabs_Ropp. rewrite (Rabs_pos_eq (1 - value w)) in Er by lra.
    assert (unit_roundoff * (1 - value w) <= unit_roundoff * 1) by (apply Rmult_le_compat_l; lra). lra.
  - intro E. rewrite Vr, (E0 E). rewrite Rminus_0_r. apply rnd_1.
  - intro E. rewrite Vr, (E1 E). rewrite Rminus_diag_eq by reflexivity. apply rnd_0.
Qed.
End Weight.

(** ** LinInter *)
Theorem c99_line : forall x xM xP yM yP M, is_double x -> is_double xM -> is_double xP -> is_double yM -> is_double yP ->
  finite x -> finite xM -> finite xP -> finite yM -> finite yP ->
  value xM <= value x <= value xP -> value xM < value xP -> Rabs (value xM) <= large -> Rabs (value xP) <= large ->
  Rabs (value yM) <= M -> Rabs (value yP) <= M -> M <= large ->
  is_double (lin_inter x xM xP yM yP) /\ finite (lin_inter x xM xP yM yP) /\
  Rabs (value (lin_inter x xM xP yM yP) - (value yM + (value x - value xM) / (value xP - value xM) * (value yP - value yM))) <= 14 * (unit_roundoff * M) + 2 * least_error /\
  (value x = value xM -> value (lin_inter x xM xP yM yP) = value yM) /\ (value x = value xP -> value (lin_inter x xM xP yM yP) = value yP).
Proof.
  intros x xM xP yM yP M Dx DM DP DyM DyP Fx FM FP FyM FyP B L SM SP BM BP ML.
  pose proof u_range as U. pose proof eta_pos as N0.
  destruct (weight_facts x xM xP Dx DM DP Fx FM FP B L SM SP) as (Dw & Fw & Rw & Ew & W0 & W1).
  destruct (rest_facts x xM xP Dx DM DP Fx FM FP B L SM SP) as (Dr & Fr & Rr & Er & R0' & R1').
  unfold lin_inter. fold (weight x xM xP). cbv zeta. set (f2 := weight x xM xP) in *. set (f1 := dsub one f2) in *.
  set (t := (value x - value xM) / (value xP - value xM)) in *. set (u := unit_roundoff) in *.
  pose proof large_2 as L2. assert (LP : 0 < large) by apply bpow_gt_0. assert (M0 : 0 <= M) by (eapply Rle_trans; [apply Rabs_pos|exact BM]).
  assert (PM : Rabs (value f1 * value yM) <= Rabs (value yM)).
  { rewrite Rabs_mult, (Rabs_pos_eq (value f1)) by lra. pose proof (Rabs_pos (value yM)). nra. }
  assert (PP : Rabs (value f2 * value yP) <= Rabs (value yP)).
  { rewrite Rabs_mult, (Rabs_pos_eq (value f2)) by lra. pose proof (Rabs_pos (value yP)). nra. }
  assert (TM : Rabs (rnd (value f1 * value yM)) < top) by (apply rnd_top; lra).
  assert (TP : Rabs (rnd (value f2 * value yP)) < top) by (apply rnd_top; lra).
  destruct (mul_value f1 yM Dr DyM Fr FyM TM) as (F1 & V1). destruct (mul_value f2 yP Dw DyP Fw FyP TP) as (F2 & V2).
  pose proof (mul_double f1 yM Dr DyM) as D1. pose proof (mul_double f2 yP Dw DyP) as D2.
  assert (B1 : Rabs (value (dmul f1 yM)) <= M) by (rewrite V1; eapply Rle_trans; [apply rnd_abs_le; [exact DyM|exact PM]|exact BM]).
  assert (B2 : Rabs (value (dmul f2 yP)) <= M) by (rewrite V2; eapply Rle_trans; [apply rnd_abs_le; [exact DyP|exact PP]|exact BP]).
  assert (SB : Rabs (value (dmul f1 yM) + value (dmul f2 yP)) <= 2 * M) by (eapply Rle_trans; [apply Rabs_triang|lra]).
  assert (TS : Rabs (rnd (value (dmul f1 yM) + value (dmul f2 yP))) < top) by (apply rnd_top; lra).
  destruct (add_value _ _ D1 D2 F1 F2 TS) as (F3 & V3). pose proof (rnd_add_err _ _ D1 D2) as E3. rewrite <- V3 in E3.
  pose proof (rnd_err (value f1 * value yM)) as E1. pose proof (rnd_err (value f2 * value yP)) as E2. rewrite <- V1 in E1. rewrite <- V2 in E2. fold u in E1, E2, E3.
  split; [now apply add_double|]. split; [exact F3|].
  split; [|split].
  - assert (A1 : Rabs ((value f1 - (1 - t)) * value yM) <= 5 * u * M) by (rewrite Rabs_mult; apply Rmult_le_compat; [apply Rabs_pos..|exact Er|exact BM]).
    assert (A2 : Rabs ((value f2 - t) * value yP) <= 4 * u * M) by (rewrite Rabs_mult; apply Rmult_le_compat; [apply Rabs_pos..|exact Ew|exact BP]).
    replace (value (dadd (dmul f1 yM) (dmul f2 yP)) - (value yM + t * (value yP - value yM))) with
      ((value (dadd (dmul f1 yM) (dmul f2 yP)) - (value (dmul f1 yM) + value (dmul f2 yP))) + ((value (dmul f1 yM) - value f1 * value yM) + (value (dmul f2 yP) - value f2 * value yP))
        + ((value f1 - (1 - t)) * value yM + (value f2 - t) * value yP)) by ring.
    assert (X1 : u * Rabs (value f1 * value yM) <= u * M) by (apply Rmult_le_compat_l; lra).
    assert (X2 : u * Rabs (value f2 * value yP) <= u * M) by (apply Rmult_le_compat_l; lra).
    assert (X3 : u * Rabs (value (dmul f1 yM) + value (dmul f2 yP)) <= u * (2 * M)) by (apply Rmult_le_compat_l; lra).
    apply Rabs_le_inv in A1. apply Rabs_le_inv in A2. apply Rabs_le_inv in E1. apply Rabs_le_inv in E2. apply Rabs_le_inv in E3. apply Rabs_le. lra.
  - intro E. rewrite V3, V1, V2, (W0 E), (R0' E), Rmult_1_l, Rmult_0_l, rnd_0, Rplus_0_r. rewrite (rnd_double yM DyM). now apply rnd_double.
  - intro E. rewrite V3, V1, V2, (W1 E), (R1' E), Rmult_1_l, Rmult_0_l, rnd_0, Rplus_0_l. rewrite (rnd_double yP DyP). now apply rnd_double.
Qed.
Print Assumptions c99_line.
(** With the doubles 1, 2 and 3 a third of the way is not exact, but as near as said. *)
Lemma value_three : value three = 3.
Proof. unfold value, three, SF2R, F2R. cbn. lra. Qed.
Example c99_line_case : is_double one /\ is_double two /\ is_double three /\ value one <= value two <= value three /\ value one < value three /\
  Rabs (value three) <= large /\ same (lin_inter two one three one two) (dadd one half) /\ same (lin_inter one one three half two) half /\ same (lin_inter three one three half two) two.
Proof.
  rewrite value_one, value_two, value_three. repeat split; try lra. rewrite Rabs_pos_eq by lra. apply Rle_trans with (bpow radix2 2); [cbn; lra|apply bpow_le; lia].
Qed.

(** ** The atmospheric evaluation *)
(** A double that is not large. *)
Definition moderate (x : double) : Prop := is_double x /\ finite x /\ Rabs (value x) <= large.
Lemma moderate_number x : moderate x -> number x.
Proof. intros (_ & F & _) ->. exact F. Qed.
Lemma moderate_nth xs i : Forall moderate xs -> (i < length xs)%nat -> moderate (nth i xs S754_nan).
Proof. intros H L. rewrite Forall_forall in H. apply H. now apply nth_In. Qed.
Lemma at_most_moderate x y : moderate x -> moderate y -> at_most x y -> value x <= value y.
Proof. intros (A & B & _) (A' & B' & _) H. now apply at_most_value in H. Qed.
Lemma less_moderate x y : moderate x -> moderate y -> less x y -> value x < value y.
Proof. intros (A & B & _) (A' & B' & _) H. now apply less_value in H. Qed.
(** What a straight line through two points is worth at [x]. *)
Definition on_line (x x0 x1 y0 y1 : R) : R := y0 + (x - x0) / (x1 - x0) * (y1 - y0).

(** An answer is, up to rounding, on the straight line between the two answers at the neighbouring zeniths, which are asked with
    the weights of the straight line in the energy. *)
Theorem c99_atm_line : forall trace cosths enus costh enu M v, (2 <= length cosths)%nat -> (2 <= length enus)%nat ->
  increasing cosths -> increasing enus -> Forall moderate cosths -> Forall moderate enus -> moderate costh -> moderate enu ->
  (forall k f1 f2 e, is_double (trace k f1 f2 e enu costh) /\ finite (trace k f1 f2 e enu costh) /\ Rabs (value (trace k f1 f2 e enu costh)) <= M) -> M <= large ->
  atm_eval trace cosths enus costh enu = Ok v ->
  exists k e f1 f2,
    let zenith i := value (nth i cosths S754_nan) in let energy i := value (nth i enus S754_nan) in
    let flux k := value (trace k f1 f2 e enu costh) in
    (S k < length cosths)%nat /\ zenith k <= value costh <= zenith (S k) /\
    (S e < length enus)%nat /\ energy e <= value enu <= energy (S e) /\
    Rabs (value f2 - (value enu - energy e) / (energy (S e) - energy e)) <= 4 * unit_roundoff /\
    Rabs (value f1 - (energy (S e) - value enu) / (energy (S e) - energy e)) <= 5 * unit_roundoff /\
    Rabs (value v - on_line (value costh) (zenith k) (zenith (S k)) (flux k) (flux (S k))) <= 14 * (unit_roundoff * M) + 2 * least_error /\
    (value costh = zenith k -> value v = flux k) /\ (value costh = zenith (S k) -> value v = flux (S k)).
Proof.
  intros trace cosths enus costh enu M v Hc He Ic Ie Mc Me MC ME HT ML E. unfold atm_eval in E.
  destruct (atm_node cosths costh) as [k|ex|] eqn:Ek; cbn [obind] in E; [|discriminate..].
  destruct (atm_node enus enu) as [e|ex|] eqn:Ee; cbn [obind] in E; [|discriminate..].
  destruct (c99_atm_nodes cosths costh k (moderate_number _ MC) Ic Hc Ek) as (Lk & K1 & K2).
  destruct (c99_atm_nodes enus enu e (moderate_number _ ME) Ie He Ee) as (Le & E1 & E2).
  pose proof Lk as Lk'. pose proof Le as Le'. apply Nat.ltb_lt in Lk'. apply Nat.ltb_lt in Le'. rewrite Lk', Le' in E. cbn [andb] in E.
  assert (C0 : moderate (nth k cosths S754_nan)) by (apply moderate_nth; [assumption|lia]). assert (C1 : moderate (nth (S k) cosths S754_nan)) by (apply moderate_nth; [assumption|lia]).
  assert (N0 : moderate (nth e enus S754_nan)) by (apply moderate_nth; [assumption|lia]). assert (N1 : moderate (nth (S e) enus S754_nan)) by (apply moderate_nth; [assumption|lia]).
  pose proof (at_most_moderate _ _ C0 MC K1) as B0. pose proof (at_most_moderate _ _ MC C1 K2) as B1.
  pose proof (at_most_moderate _ _ N0 ME E1) as B2. pose proof (at_most_moderate _ _ ME N1 E2) as B3.
  assert (Sc : value (nth k cosths S754_nan) < value (nth (S k) cosths S754_nan)) by (apply less_moderate; [assumption..|apply Ic; lia]).
  assert (Sn : value (nth e enus S754_nan) < value (nth (S e) enus S754_nan)) by (apply less_moderate; [assumption..|apply Ie; lia]).
  injection E as E. change (at_place cosths) with (fun i => nth i cosths S754_nan) in E. change (at_place enus) with (fun i => nth i enus S754_nan) in E. cbv beta in E.
  destruct MC as (X1 & X2 & X3), ME as (Y1 & Y2 & Y3), C0 as (P1 & P2 & P3), C1 as (Q1 & Q2 & Q3), N0 as (U1 & U2 & U3), N1 as (V1 & V2 & V3).
  set (f2 := ddiv (dsub enu (nth e enus S754_nan)) (dsub (nth (S e) enus S754_nan) (nth e enus S754_nan))) in *. set (f1 := dsub one f2) in *.
  exists k, e, f1, f2. cbv zeta.
  split; [exact Lk|]. split; [split; assumption|]. split; [exact Le|]. split; [split; assumption|].
  destruct (weight_facts enu _ _ Y1 U1 V1 Y2 U2 V2 (conj B2 B3) Sn U3 V3) as (_ & _ & _ & W & _).
  destruct (rest_facts enu _ _ Y1 U1 V1 Y2 U2 V2 (conj B2 B3) Sn U3 V3) as (_ & _ & _ & W' & _).
  split; [exact W|]. split.
  { change (dsub one (weight enu (nth e enus S754_nan) (nth (S e) enus S754_nan))) with f1 in W'.
    match goal with |- Rabs (_ - ?q) <= _ => replace q with (1 - (value enu - value (nth e enus S754_nan)) / (value (nth (S e) enus S754_nan) - value (nth e enus S754_nan))) by (field; lra) end. exact W'. }
  destruct (HT k f1 f2 e) as (T1 & T2 & T3), (HT (S k) f1 f2 e) as (T1' & T2' & T3').
  destruct (c99_line costh _ _ _ _ M X1 P1 Q1 T1 T1' X2 P2 Q2 T2 T2' (conj B0 B1) Sc P3 Q3 T3 T3' ML) as (_ & _ & Z1 & Z2 & Z3). rewrite <- E.
  split; [exact Z1|]. split; assumption.
Qed.
Print Assumptions c99_atm_line.
Example c99_atm_line_case : let trace := fun (k : nat) (f1 f2 : double) (e : nat) (_ _ : double) => dadd (dmul f1 (of_count (k + e))) (dmul f2 (of_count (k + S e))) in
  Forall moderate [dopp one; zero; one] /\ Forall moderate [one; two; three] /\ moderate half /\
  atm_eval trace [dopp one; zero; one] [one; two; three] half (dadd one half) = Ok two.
Proof.
  assert (L : forall z, Rabs z <= 3 -> Rabs z < large) by (intros z H; eapply Rle_lt_trans; [exact H|]; apply Rlt_le_trans with (bpow radix2 2); [cbn; lra|apply bpow_le; lia]).
  assert (O : value (dopp one) = -1) by (unfold value, dopp, one, SF2R, F2R; cbn; lra). assert (Z : value zero = 0) by reflexivity. assert (Hf : value half = / 2) by (unfold value, half, SF2R, F2R; cbn; lra).
  repeat split; repeat constructor; try (apply L; rewrite ?O, ?Z, ?Hf, ?value_one, ?value_two, ?value_three; apply Rabs_le; lra).
Qed.
