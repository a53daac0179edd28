(** C14 with doubles: when a grid is increasing, and how far its points are from the exact ones. *)
From Coq Require Import List Arith ZArith Reals Bool Lia Lra Psatz.
From Coq Require Import SpecFloat.
From Flocq Require Import Zaux Raux Defs Generic_fmt Float_prop Round_NE FLT Ulp Relative BinarySingleNaN.
From Verif Require Import Err DblModel DblSpec DblProofs DblGridModel DblGridProps DblReal.
Import ListNotations.
Local Open Scope R_scope.
#[local] Existing Instance Hprec.
#[local] Existing Instance Hmax.

(** Half the distance of 1 to the next double, 2^-53, and half the smallest double, 2^-1075. *)
Definition unit_roundoff : R := bpow radix2 (-53).
Definition least_error : R := bpow radix2 (-1075).
Lemma rnd_err x : Rabs (rnd x - x) <= unit_roundoff * Rabs x + least_error.
Proof.
  destruct (error_N_FLT radix2 (-1074) 53 ltac:(lia) (fun t => negb (Z.even t)) x) as (eps & eta & He & Ht & _ & E).
  unfold rnd. rewrite fexp_flt, E. replace (x * (1 + eps) + eta - x) with (eps * x + eta) by ring.
  eapply Rle_trans; [apply Rabs_triang|]. rewrite Rabs_mult. apply Rplus_le_compat.
  - apply Rmult_le_compat_r; [apply Rabs_pos|]. eapply Rle_trans; [exact He|]. right. unfold unit_roundoff. change (/ 2) with (bpow radix2 (-1)). rewrite <- bpow_plus. reflexivity.
  - eapply Rle_trans; [exact Ht|]. right. unfold least_error. change (/ 2) with (bpow radix2 (-1)). rewrite <- bpow_plus. reflexivity.
Qed.
Lemma rnd_top x : Rabs x <= bpow radix2 1001 -> Rabs (rnd x) < top.
Proof.
  intro H. apply Rle_lt_trans with (bpow radix2 1001); [|apply bpow_lt; lia].
  assert (B : rnd (bpow radix2 1001) = bpow radix2 1001) by (apply round_generic; [apply valid_rnd_N|apply generic_format_bpow; vm_compute; discriminate]).
  assert (B' : rnd (- bpow radix2 1001) = - bpow radix2 1001) by (apply round_generic; [apply valid_rnd_N|apply generic_format_opp, generic_format_bpow; vm_compute; discriminate]).
  apply Rabs_le_inv in H. apply Rabs_le. rewrite <- B' at 1. rewrite <- B at 2. split; apply rnd_le; lra.
Qed.
Lemma count_value n : INR n < bpow radix2 53 -> is_double (of_count n) /\ finite (of_count n) /\ value (of_count n) = INR n.
Proof.
  intro H. unfold of_count. rewrite normalize_equiv. set (z := BinarySingleNaN.binary_normalize _ _ _ _ _ _ _ _).
  split; [apply bits_ok|]. rewrite finite_bits, value_bits.
  pose proof (binary_normalize_correct 53 1024 Hprec Hmax mode_NE (Z.of_nat n) 0 false) as C. cbv zeta in C. fold z in C.
  assert (E : F2R (Float radix2 (Z.of_nat n) 0) = INR n) by (unfold F2R; cbn; rewrite INR_IZR_INZ; ring).
  assert (G : round radix2 (SpecFloat.fexp 53 1024) (round_mode mode_NE) (INR n) = INR n).
  { apply round_generic; [apply valid_rnd_N|]. rewrite fexp_flt. apply generic_format_FLT. exists (Float radix2 (Z.of_nat n) 0).
    - symmetry. exact E.
    - cbn [Fnum]. rewrite Z.abs_eq by lia. apply lt_IZR. rewrite <- INR_IZR_INZ. exact H.
    - cbn. lia. }
  rewrite E, G in C. rewrite Rlt_bool_true in C; [tauto|]. rewrite Rabs_pos_eq by apply pos_INR. eapply Rlt_trans; [exact H|]. apply bpow_lt. lia.
Qed.

(** ** One step, in real numbers *)
Section Step.
Variables a E N h u eta s : R.
Hypothesis HaE : 0 <= a < E.
Hypothesis HN : 2 <= N.
Hypothesis Hh : N * h = E - a.
Hypothesis Hw : 8 * (N * N) * (u * E) <= E - a.
Hypothesis Hu : 0 < u <= / 1000.
Hypothesis Heta : 0 <= eta <= u * E / 1000.
Hypothesis Hs : Rabs (s - h) <= 3 * (u * h) + 3 * eta.

Lemma step_facts : 0 < u * E /\ 8 * (N * (u * E)) <= h /\ 2 * h <= E /\ 0 <= u * h /\ 2 * (u * h) <= u * E /\ 8 * (N * (u * E)) <= E.
Proof.
  assert (V : 0 < u * E) by (apply Rmult_lt_0_compat; lra).
  assert (Hp : 0 < h) by (apply Rmult_lt_reg_l with N; lra).
  split; [exact V|]. split; [apply Rmult_le_reg_l with N; lra|].
  assert (H2 : 2 * h <= E) by nra. split; [exact H2|]. split; [nra|]. split; [nra|].
  assert (N <= N * N) by nra. nra.
Qed.
Lemma step_close i X Y : 0 <= i -> i + 1 <= N - 1 -> Rabs (X - (a + i * h)) <= i * (4 * (u * E)) -> Rabs (Y - (X + s)) <= u * Rabs (X + s) + eta ->
  Rabs (Y - (a + (i + 1) * h)) <= (i + 1) * (4 * (u * E)) /\ X < Y /\ Rabs (X + s) <= 2 * E.
Proof.
  intros Hi Hi2 HX HY. destruct step_facts as (V & F1 & F2 & F3 & F4 & F5). set (v := u * E) in *.
  assert (I1 : i * (4 * v) <= N * (4 * v)) by (apply Rmult_le_compat_r; lra).
  assert (Hp : 0 < h) by (apply Rmult_lt_reg_l with N; lra).
  assert (I2 : (i + 1) * h <= N * h) by (apply Rmult_le_compat_r; lra).
  assert (I3 : 1 * h <= (i + 1) * h) by (apply Rmult_le_compat_r; lra).
  assert (Nv : 2 * v <= N * v) by (apply Rmult_le_compat_r; lra).
  apply Rabs_le_inv in HX. apply Rabs_le_inv in Hs.
  assert (S1 : 0 <= X + s) by lra. assert (S2 : X + s <= 1.6 * E) by lra.
  rewrite (Rabs_pos_eq _ S1) in *. apply Rabs_le_inv in HY.
  assert (S3 : u * (X + s) <= 1.6 * v).
  { unfold v. replace (1.6 * (u * E)) with (u * (1.6 * E)) by ring. apply Rmult_le_compat_l; lra. }
  split; [apply Rabs_le|]; lra.
Qed.
Lemma last_close i X : 0 <= i -> i <= N - 1 -> Rabs (X - (a + i * h)) <= i * (4 * (u * E)) -> X < E.
Proof.
  intros Hi Hi2 HX. destruct step_facts as (V & F1 & F2 & F3 & F4 & F5). set (v := u * E) in *.
  assert (Hp : 0 < h) by (apply Rmult_lt_reg_l with N; lra).
  assert (I1 : i * (4 * v) <= N * (4 * v)) by (apply Rmult_le_compat_r; lra).
  assert (I2 : (i + 1) * h <= N * h) by (apply Rmult_le_compat_r; lra).
  assert (0 < N * v) by (apply Rmult_lt_0_compat; lra).
  apply Rabs_le_inv in HX. lra.
Qed.
End Step.

Section Grid.
Variables emin emax : double.
Variable n : nat.                               (* intervals *)
Hypotheses (D1 : is_double emin) (D2 : is_double emax) (F1 : finite emin) (F2 : finite emax).
Let a := value emin.
Let E := value emax.
Hypothesis range : 0 <= a < E.
Hypothesis size : bpow radix2 (-1000) <= E <= bpow radix2 1000.
Hypothesis few : 8 * (INR n * INR n) * (unit_roundoff * E) <= E - a.
Hypothesis some : (2 <= n)%nat.
Let N := INR n.
Let h := (E - a) / N.
Let s := ddiv (dsub emax emin) (of_count n).

Lemma N2 : 2 <= N.
Proof. unfold N. replace 2 with (INR 2) by reflexivity. now apply le_INR. Qed.
Lemma u_small : 0 < unit_roundoff <= / 1000.
Proof. unfold unit_roundoff. split; [apply bpow_gt_0|]. cbn. lra. Qed.
Lemma eta_small : 0 <= least_error <= unit_roundoff * E / 1000.
Proof.
  split; [apply bpow_ge_0|]. unfold least_error, unit_roundoff.
  assert (P : 0 < bpow radix2 (-53)) by apply bpow_gt_0.
  apply Rle_trans with (bpow radix2 (-53) * bpow radix2 (-1000) / 1000).
  - change (-1075)%Z with (-53 + (-1000) + (-22))%Z. rewrite !bpow_plus. unfold Rdiv. apply Rmult_le_compat_l; [apply Rmult_le_pos; apply bpow_ge_0|]. cbn. lra.
  - unfold Rdiv. apply Rmult_le_compat_r; [lra|]. apply Rmult_le_compat_l; lra.
Qed.
Lemma Nh : N * h = E - a.
Proof. unfold h. pose proof N2. field. lra. Qed.
Lemma N_fits : N < bpow radix2 53.
Proof.
  pose proof N2 as H2. assert (Q : N * N * unit_roundoff <= / 8).
  { apply Rmult_le_reg_r with (8 * E); [lra|]. replace (N * N * unit_roundoff * (8 * E)) with (8 * (N * N) * (unit_roundoff * E)) by ring.
    fold N in few. lra. }
  apply Rmult_lt_reg_r with unit_roundoff; [apply u_small|]. unfold unit_roundoff at 2. rewrite <- bpow_plus. change (bpow radix2 (53 + -53)) with 1.
  pose proof u_small as [U _]. assert (N * unit_roundoff <= N * N * unit_roundoff) by (apply Rmult_le_compat_r; nra). lra.
Qed.
Lemma E_top : forall x, Rabs x <= 2 * E -> Rabs (rnd x) < top.
Proof. intros x H. apply rnd_top. eapply Rle_trans; [exact H|]. change 1001%Z with (1 + 1000)%Z. rewrite bpow_plus. change (bpow radix2 1) with 2. lra. Qed.
Lemma step_value : is_double s /\ finite s /\ Rabs (value s - h) <= 3 * (unit_roundoff * h) + 3 * least_error.
Proof.
  pose proof N2 as H2. destruct (count_value n N_fits) as (C1 & C2 & C3). fold N in C3.
  pose proof u_small as [U1 U2]. pose proof eta_small as [T1 T2]. set (u := unit_roundoff) in *. set (t := least_error) in *.
  assert (V : u * E <= E / 1000) by nra.
  destruct (sub_value emax emin D2 D1 F2 F1) as [S1 S2].
  { apply E_top. fold a E. rewrite Rabs_pos_eq; lra. }
  fold a E in S2. pose proof (rnd_err (E - a)) as R1. rewrite <- S2 in R1. rewrite (Rabs_pos_eq (E - a)) in R1 by lra. fold u t in R1. set (d := value (dsub emax emin)) in *.
  assert (Hp : 0 < h) by (apply Rmult_lt_reg_l with N; [lra|rewrite Nh; lra]).
  assert (IN : 0 < / N <= / 2) by (split; [apply Rinv_0_lt_compat; lra|apply Rinv_le; lra]).
  assert (Uh : u * (E - a) * / N = u * h) by (unfold h; field; lra).
  assert (Th : t * / N <= t * / 2) by (apply Rmult_le_compat_l; lra).
  assert (Q1 : Rabs (d * / N - h) <= u * h + t * / 2).
  { replace (d * / N - h) with ((d - (E - a)) * / N) by (unfold h; field; lra). rewrite Rabs_mult, (Rabs_pos_eq (/ N)) by lra.
    apply Rle_trans with ((u * (E - a) + t) * / N); [apply Rmult_le_compat_r; lra|]. rewrite Rmult_plus_distr_r. lra. }
  pose proof (Rabs_le_inv _ _ Q1) as Q1'.
  assert (H2h : 2 * h <= E). { pose proof Nh. nra. }
  assert (Uh2 : 0 <= u * h <= h / 1000) by nra. assert (Uh3 : 2 * (u * h) <= u * E) by nra.
  destruct (div_value (dsub emax emin) (of_count n) (sub_double _ _ D2 D1) C1 S1 C2) as [S3 S4].
  { rewrite C3. lra. }
  { rewrite C3. apply E_top. fold d. change (d / N) with (d * / N). apply Rabs_le. lra. }
  rewrite C3 in S4. fold d in S4. change (d / N) with (d * / N) in S4. fold s in S3, S4.
  split; [apply div_double; [now apply sub_double|exact C1]|]. split; [exact S3|].
  pose proof (rnd_err (d * / N)) as R2. rewrite <- S4 in R2. fold u t in R2.
  assert (A2 : Rabs (d * / N) <= 1.5 * h + t) by (apply Rabs_le; lra).
  assert (A3 : u * Rabs (d * / N) <= u * (1.5 * h + t)) by (apply Rmult_le_compat_l; lra).
  assert (A4 : u * t <= t / 1000) by nra.
  apply Rabs_le_inv in R2. apply Rabs_le. lra.
Qed.
Let x i := Nat.iter i (fun p => dadd p s) emin.
Lemma points_close : forall i, (i <= n - 1)%nat -> is_double (x i) /\ finite (x i) /\ Rabs (value (x i) - (a + INR i * h)) <= INR i * (4 * (unit_roundoff * E)).
Proof.
  destruct step_value as (S1 & S2 & S3). induction i as [|i IH]; intro Hi.
  - cbn [x Nat.iter nat_rect INR]. split; [exact D1|]. split; [exact F1|]. fold a. replace (a - (a + 0 * h)) with 0 by ring. rewrite Rabs_R0. lra.
  - destruct (IH ltac:(lia)) as (X1 & X2 & X3). change (x (S i)) with (dadd (x i) s). rewrite S_INR.
    assert (I0 : 0 <= INR i) by apply pos_INR.
    assert (I1 : INR i + 1 <= N - 1). { unfold N. rewrite <- S_INR. replace 1 with (INR 1) by reflexivity. rewrite <- minus_INR by lia. apply le_INR. lia. }
    assert (B := step_close a E N h unit_roundoff least_error (value s) range N2 Nh few u_small eta_small S3 (INR i) (value (x i))).
    pose proof (B (rnd (value (x i) + value s)) I0 I1 X3 (rnd_err _)) as (B1 & B2 & B3).
    destruct (add_value (x i) s X1 S1 X2 S2 (E_top _ B3)) as [A1 A2].
    split; [now apply add_double|]. split; [exact A1|]. rewrite A2. exact B1.
Qed.
Lemma points_up : forall i, (S i <= n - 1)%nat -> value (x i) < value (x (S i)).
Proof.
  intros i Hi. destruct step_value as (S1 & S2 & S3). destruct (points_close i ltac:(lia)) as (X1 & X2 & X3). change (x (S i)) with (dadd (x i) s).
  assert (I0 : 0 <= INR i) by apply pos_INR.
  assert (I1 : INR i + 1 <= N - 1). { unfold N. rewrite <- S_INR. replace 1 with (INR 1) by reflexivity. rewrite <- minus_INR by lia. apply le_INR. lia. }
  destruct (step_close a E N h unit_roundoff least_error (value s) range N2 Nh few u_small eta_small S3 (INR i) (value (x i)) (rnd (value (x i) + value s)) I0 I1 X3 (rnd_err _)) as (B1 & B2 & B3).
  destruct (add_value (x i) s X1 S1 X2 S2 (E_top _ B3)) as [A1 A2]. rewrite A2. exact B2.
Qed.
Lemma points_below : forall i, (i <= n - 1)%nat -> value (x i) < E.
Proof.
  intros i Hi. destruct (points_close i Hi) as (X1 & X2 & X3).
  apply (last_close a E N h unit_roundoff least_error range N2 Nh few u_small eta_small (INR i)); [apply pos_INR| |exact X3].
  unfold N. replace 1 with (INR 1) by reflexivity. rewrite <- minus_INR by lia. now apply le_INR.
Qed.
Lemma grid_nth i : (i < n)%nat -> nth i (points (fun e => e) n emin s ++ [emax]) S754_nan = x i.
Proof. intro H. rewrite app_nth1 by (rewrite points_length; exact H). now rewrite points_nth. Qed.
Lemma grid_last : nth n (points (fun e => e) n emin s ++ [emax]) S754_nan = emax.
Proof. rewrite app_nth2 by (rewrite points_length; lia). rewrite points_length, Nat.sub_diag. reflexivity. Qed.
Lemma grid_good i : (i <= n)%nat -> let p := nth i (points (fun e => e) n emin s ++ [emax]) S754_nan in is_double p /\ finite p.
Proof.
  intros H p. unfold p. destruct (Nat.eq_dec i n) as [->|K]; [rewrite grid_last; now split|]. rewrite grid_nth by lia.
  destruct (points_close i ltac:(lia)) as (A & B & _). now split.
Qed.
Lemma grid_up i : (i < n)%nat -> let l := points (fun e => e) n emin s ++ [emax] in value (nth i l S754_nan) < value (nth (S i) l S754_nan).
Proof.
  intros H l. unfold l. rewrite (grid_nth i H). destruct (Nat.eq_dec (S i) n) as [K|K].
  - rewrite K, grid_last. apply points_below. lia.
  - rewrite grid_nth by lia. apply points_up. lia.
Qed.
Lemma grid_up' i j : (i < j)%nat -> (j <= n)%nat -> let l := points (fun e => e) n emin s ++ [emax] in value (nth i l S754_nan) < value (nth j l S754_nan).
Proof.
  intros H Hj l. induction j as [|j IH]; [lia|]. destruct (Nat.eq_dec i j) as [->|K]; [apply grid_up; lia|].
  eapply Rlt_trans; [apply IH; lia|apply grid_up; lia].
Qed.
End Grid.

(** The exact grid. *)
Definition exact_point (emin emax : R) (div i : nat) : R := emin + INR i * ((emax - emin) / INR (div - 1)).
(** If the range is wide enough for the number of points, the grid of doubles is increasing, stays inside,
    and every point is the exact one within [4 div] roundings. *)
Theorem c14_doubles_increasing : forall emin emax div, is_double emin -> is_double emax -> finite emin -> finite emax ->
  0 <= value emin < value emax -> bpow radix2 (-1000) <= value emax <= bpow radix2 1000 -> (2 <= div)%nat ->
  8 * INR (div - 1) ^ 2 * (unit_roundoff * value emax) <= value emax - value emin ->
  exists l, lin emin emax div = Ok l /\ increasing l /\
  forall i, (i < div)%nat -> Rabs (value (nth i l S754_nan) - exact_point (value emin) (value emax) div i) <= 4 * INR div * (unit_roundoff * value emax).
Proof.
  intros emin emax div D1 D2 F1 F2 Ra Sz Hd Few. destruct div as [|n]; [lia|]. replace (S n - 1)%nat with n in * by lia.
  set (u := unit_roundoff) in *. set (E := value emax) in *. set (a := value emin) in *.
  assert (U : 0 < u * E) by (apply Rmult_lt_0_compat; [apply bpow_gt_0|lra]).
  eexists. split; [reflexivity|]. set (s := ddiv (dsub emax emin) (of_count n)).
  assert (L : length (points (fun e => e) n emin s ++ [emax]) = S n) by (rewrite app_length, points_length; cbn; lia).
  assert (Big : forall i, (i < S n)%nat -> 0 <= INR i * (4 * (u * E)) <= 4 * INR (S n) * (u * E)).
  { intros i Hi. assert (0 <= INR i <= INR (S n)) by (split; [apply pos_INR|apply le_INR; lia]). nra. }
  destruct (Nat.eq_dec n 1) as [->|N1].
  - cbn [points app]. split.
    + split; [apply Forall_cons; [intro K; subst emin; exact F1|apply Forall_cons; [intro K; subst emax; exact F2|constructor]]|].
      intros [|[|i]] [|[|j]] H G; cbn in G; try lia. cbn [nth]. apply less_value; trivial. apply Ra.
    + intros [|[|i]] Hi; [| |lia]; cbn [nth]; unfold exact_point; cbn [Nat.sub INR]; fold a E.
      * replace (a - (a + 0 * ((E - a) / 1))) with 0 by field. rewrite Rabs_R0. lra.
      * replace (E - (a + 1 * ((E - a) / 1))) with 0 by field. rewrite Rabs_R0. lra.
  - assert (N2 : (2 <= n)%nat) by lia.
    assert (Few' : 8 * (INR n * INR n) * (u * E) <= E - a) by (replace (INR n * INR n) with (INR n ^ 2) by ring; exact Few).
    split.
    + split.
      * apply Forall_forall. intros p Hp. apply (In_nth _ _ S754_nan) in Hp. destruct Hp as (i & Hi & <-). assert (Hi' : (i < S n)%nat) by (rewrite <- L; exact Hi).
        destruct (grid_good emin emax n D1 D2 F1 F2 Ra Sz Few' N2 i ltac:(lia)) as [_ B]. intro K. apply (f_equal finite) in K. change (finite S754_nan). rewrite <- K. exact B.
      * intros i j H G0. assert (G : (j < S n)%nat) by (rewrite <- L; exact G0).
        destruct (grid_good emin emax n D1 D2 F1 F2 Ra Sz Few' N2 i ltac:(lia)) as [A1 B1]. destruct (grid_good emin emax n D1 D2 F1 F2 Ra Sz Few' N2 j ltac:(lia)) as [A2 B2].
        apply less_value; trivial. apply (grid_up' emin emax n D1 D2 F1 F2 Ra Sz Few' N2 i j H). lia.
    + intros i Hi. unfold exact_point. replace (S n - 1)%nat with n by lia. destruct (Nat.eq_dec i n) as [->|K].
      * match goal with |- context [value ?q] => assert (P : q = emax) by exact (grid_last emin emax n N2); rewrite P end. fold E. assert (0 < INR n) by (apply lt_0_INR; lia). replace (E - (a + INR n * ((E - a) / INR n))) with 0 by (field; lra). rewrite Rabs_R0. specialize (Big n ltac:(lia)). lra.
      * match goal with |- context [value ?q] => assert (P : q = Nat.iter i (fun p => dadd p s) emin) by exact (grid_nth emin emax n i ltac:(lia)); rewrite P end.
        destruct (points_close emin emax n D1 D2 F1 F2 Ra Sz Few' N2 i ltac:(lia)) as (_ & _ & B). eapply Rle_trans; [exact B|]. apply Big. lia.
Qed.
Print Assumptions c14_doubles_increasing.
(** A grid of 1000 points over one decade is far inside the condition. *)
Example c14_doubles_increasing_case : forall emin emax, 0 < emin -> 10 * emin <= emax -> 8 * INR (1000 - 1) ^ 2 * (unit_roundoff * emax) <= emax - emin.
Proof.
  intros a E Ha H. replace (INR (1000 - 1)) with 999. 2:{ rewrite INR_IZR_INZ. reflexivity. }
  assert (U : 8 * 999 ^ 2 * unit_roundoff <= / 2) by (unfold unit_roundoff; cbn; lra). assert (0 < unit_roundoff) by apply bpow_gt_0. nra.
Qed.
Lemma value_one : value one = 1.
Proof. unfold value, one, SF2R, F2R. cbn. lra. Qed.
Lemma value_two : value two = 2.
Proof. unfold value, two, SF2R, F2R. cbn. lra. Qed.
(** The doubles 1 and 2 satisfy all the conditions, with 100 points. *)
Example c14_doubles_one_two : is_double one /\ is_double two /\ finite one /\ finite two /\ 0 <= value one < value two /\
  bpow radix2 (-1000) <= value two <= bpow radix2 1000 /\ 8 * INR (100 - 1) ^ 2 * (unit_roundoff * value two) <= value two - value one.
Proof.
  rewrite value_one, value_two. repeat split; try lra.
  - apply Rle_trans with (bpow radix2 1); [apply bpow_le; lia|cbn; lra].
  - apply Rle_trans with (bpow radix2 1); [cbn; lra|apply bpow_le; lia].
  - replace (INR (100 - 1)) with 99 by (rewrite INR_IZR_INZ; reflexivity). unfold unit_roundoff. cbn. lra.
Qed.
