(** C99: media and cross sections asked at numbers, with rounding. *)
From Coq Require Import List Arith ZArith Reals Bool Lia Lra Psatz.
From Coq Require Import SpecFloat.
From Flocq Require Import Zaux Raux Defs Generic_fmt Float_prop Round_NE FLT Ulp Relative Mult_error BinarySingleNaN.
From Verif Require Import Err DblModel DblSpec DblProofs DblGridModel DblGridProps DblReal DblGridRealProps DblProps DblLineProps.
Import ListNotations.
Local Open Scope R_scope.
#[local] Existing Instance Hprec.
#[local] Existing Instance Hmax.

(** ** The Earth *)
Section Earth.
Variables r : R.
Hypothesis Hr : 1 <= r <= 7000.
Let V := unit_roundoff * (r * r).
Lemma v_facts : 0 < V /\ V <= / 1000000 * (r * r) /\ least_error <= / 1000000 * V /\ 1 <= r * r <= 49000000.
Proof.
  pose proof u_range as U. pose proof eta_small as N. assert (S1 : 1 <= r * r) by nra. assert (S2 : r * r <= 49000000) by nra.
  split; [apply Rmult_lt_0_compat; lra|]. split; [apply Rmult_le_compat_r; lra|]. split; [|lra].
  assert (unit_roundoff * 1 <= V) by (apply Rmult_le_compat_l; lra). lra.
Qed.
Lemma rnd_V z k : 0 <= k -> Rabs z <= k * (r * r) -> Rabs (rnd z - z) <= (k + 0.001) * V.
Proof.
  intros K H. destruct v_facts as (V0 & V1 & V2 & V3). pose proof u_range as U. eapply Rle_trans; [apply rnd_err|].
  assert (unit_roundoff * Rabs z <= k * V) by (unfold V; replace (k * (unit_roundoff * (r * r))) with (unit_roundoff * (k * (r * r))) by ring; apply Rmult_le_compat_l; lra). lra.
Qed.
Lemma moderate_V z k : 0 <= k <= 100 -> Rabs z <= k * (r * r) -> Rabs (rnd z) < top.
Proof.
  intros K H. apply rnd_top. eapply Rle_trans; [exact H|]. destruct v_facts as (V0 & V1 & V2 & V3). apply Rle_trans with (100 * 49000000); [apply Rmult_le_compat; lra|].
  apply Rle_trans with (bpow radix2 40); [cbn; lra|apply bpow_le; lia].
Qed.
End Earth.

Lemma abs_value x : is_double x -> is_double (dabs x) /\ value (dabs x) = Rabs (value x).
Proof.
  intro X. destruct (bits_of x X) as [a ->]. rewrite value_bits. destruct a as [s|s| |s m e B]; cbn.
  - split; [reflexivity|now rewrite Rabs_R0].
  - split; [reflexivity|now rewrite Rabs_R0].
  - split; [reflexivity|now rewrite Rabs_R0].
  - split; [exact B|]. unfold value. cbn. rewrite <- F2R_Zabs. now destruct s.
Qed.
Lemma abs_finite x : finite x -> finite (dabs x).
Proof. now destruct x. Qed.
Lemma micro_value : / 1100000 <= value micro.
Proof. unfold value, micro, SF2R, F2R. cbn. lra. Qed.
Lemma less_dlt x y : moderate x -> moderate y -> dlt x y = Rlt_bool (value x) (value y).
Proof.
  intros (X & Fx & _) (Y & Fy & _). unfold dlt, SFltb. rewrite compare_value by assumption. unfold Rlt_bool. destruct (Rcompare (value x) (value y)); reflexivity.
Qed.

(** The answer of a body of shells at the relative radius [q]. *)
Definition of_shells (m : shells) (q : double) (answer : outcome double) : Prop :=
  (less q (r_min m) /\ answer = Ok (v_min m)) \/ (~ less q (r_min m) /\ less (r_max m) q /\ answer = Ok (v_max m)) \/
  (~ less q (r_min m) /\ ~ less (r_max m) q /\ answer = spline_at (inter m) q).

(** On a track inside the Earth the answer is that of the shells at a radius which is right up to rounding; nothing is thrown.  Radii are in km. *)
Theorem c99_earth : forall km radius m baseline x, is_double km -> is_double radius -> is_double baseline -> is_double x ->
  finite km -> finite radius -> finite baseline -> finite x ->
  1 <= value radius <= 7000 -> 0 < value km -> 0 <= value x <= value baseline -> value baseline <= 2 * value radius * value km ->
  exists r, is_double r /\ finite r /\ 0 <= value r /\
    (let X := value (ddiv x km) in let L := value (ddiv baseline km) in
     0 <= X <= L /\ L <= 2 * value radius /\
     Rabs (value r * value r - (value radius * value radius + X * X - L * X)) <= 27 * (unit_roundoff * (value radius * value radius))) /\
    of_shells m (ddiv r radius) (earth_at km radius m baseline x).
Proof.
  intros km radius m baseline x Dk Dr Db Dx Fk Fr Fb Fx HR K0 Hx Hb. pose proof u_range as U.
  set (a := value radius) in *. destruct (v_facts a HR) as (V0 & V1 & V2 & V3). set (V := unit_roundoff * (a * a)) in *.
  assert (Q1 : 0 <= value x / value km <= value baseline / value km).
  { split; [apply Rmult_le_pos; [lra|left; now apply Rinv_0_lt_compat]|apply Rmult_le_compat_r; [left; now apply Rinv_0_lt_compat|lra]]. }
  assert (Q2 : value baseline / value km <= 2 * a) by (apply Rmult_le_reg_r with (value km); [lra|]; unfold Rdiv; rewrite Rmult_assoc, Rinv_l; lra).
  assert (R2 : rnd (2 * a) = 2 * a).
  { replace (2 * a) with (a * bpow radix2 1) by (cbn; ring). unfold rnd. rewrite fexp_flt. apply round_generic; [apply valid_rnd_N|].
    apply mult_bpow_pos_exact_FLT; [apply double_format; exact Dr|lia]. }
  assert (T : forall z, 0 <= z <= 2 * a -> Rabs (rnd z) < top).
  { intros z Hz. apply rnd_top. rewrite Rabs_pos_eq by lra. apply Rle_trans with (bpow radix2 40); [cbn; lra|apply bpow_le; lia]. }
  destruct (div_value x km Dx Dk Fx Fk ltac:(lra) (T (value x / value km) ltac:(lra))) as (FX & VX). destruct (div_value baseline km Db Dk Fb Fk ltac:(lra) (T (value baseline / value km) ltac:(lra))) as (FL & VL).
  pose proof (div_double x km Dx Dk) as DX. pose proof (div_double baseline km Db Dk) as DL.
  assert (BX : 0 <= value (ddiv x km) <= value (ddiv baseline km)).
  { rewrite VX, VL. split; [apply Rle_trans with (rnd 0); [right; symmetry; apply rnd_0|apply rnd_le; lra]|apply rnd_le; lra]. }
  assert (BL : value (ddiv baseline km) <= 2 * a) by (rewrite VL, <- R2; now apply rnd_le).
  unfold earth_at. cbv zeta. set (xk := ddiv x km) in *. set (lk := ddiv baseline km) in *. set (X := value xk) in *. set (L := value lk) in *.
  unfold sqr.
  assert (A1 : Rabs (a * a) <= 1 * (a * a)) by (rewrite Rabs_pos_eq; lra).
  assert (XX : 0 <= X * X <= 4 * (a * a)) by nra. assert (LX : 0 <= L * X <= 4 * (a * a)) by nra.
  assert (A2 : Rabs (X * X) <= 4 * (a * a)) by (rewrite Rabs_pos_eq; lra).
  assert (A3 : Rabs (L * X) <= 4 * (a * a)) by (rewrite Rabs_pos_eq; lra).
  destruct (mul_value radius radius Dr Dr Fr Fr (moderate_V a HR _ 1 ltac:(lra) A1)) as (F1 & W1). pose proof (mul_double _ _ Dr Dr) as D1.
  destruct (mul_value xk xk DX DX FX FX (moderate_V a HR _ 4 ltac:(lra) A2)) as (F2 & W2). pose proof (mul_double _ _ DX DX) as D2.
  destruct (mul_value lk xk DL DX FL FX (moderate_V a HR _ 4 ltac:(lra) A3)) as (F3 & W3). pose proof (mul_double _ _ DL DX) as D3.
  fold a in W1. fold X in W2, W3. fold L in W3.
  pose proof (rnd_V a HR _ 1 ltac:(lra) A1) as E1. pose proof (rnd_V a HR _ 4 ltac:(lra) A2) as E2. pose proof (rnd_V a HR _ 4 ltac:(lra) A3) as E3.
  rewrite <- W1 in E1. rewrite <- W2 in E2. rewrite <- W3 in E3. fold V in E1, E2, E3.
  apply Rabs_le_inv in E1. apply Rabs_le_inv in E2. apply Rabs_le_inv in E3.
  set (m1 := dmul radius radius) in *. set (m2 := dmul xk xk) in *. set (m3 := dmul lk xk) in *.
  assert (A4 : Rabs (value m1 + value m2) <= 5.1 * (a * a)) by (apply Rabs_le; lra).
  destruct (add_value m1 m2 D1 D2 F1 F2 (moderate_V a HR _ 5.1 ltac:(lra) A4)) as (F4 & W4). pose proof (add_double _ _ D1 D2) as D4.
  pose proof (rnd_V a HR _ 5.1 ltac:(lra) A4) as E4. rewrite <- W4 in E4. fold V in E4. apply Rabs_le_inv in E4. set (m4 := dadd m1 m2) in *.
  assert (A5 : Rabs (value m4 - value m3) <= 5.2 * (a * a)) by (apply Rabs_le; lra).
  destruct (sub_value m4 m3 D4 D3 F4 F3 (moderate_V a HR _ 5.2 ltac:(lra) A5)) as (F5 & W5). pose proof (sub_double _ _ D4 D3) as D5.
  pose proof (rnd_V a HR _ 5.2 ltac:(lra) A5) as E5. rewrite <- W5 in E5. fold V in E5. apply Rabs_le_inv in E5. set (r2 := dsub m4 m3) in *.
  set (ex := a * a + X * X - L * X).
  assert (Close : - (20 * V) <= value r2 - ex <= 20 * V) by (unfold ex; lra).
  assert (Pos : 0 <= ex <= a * a).
  { unfold ex. split; [|assert (0 <= X * (L - X)) by (apply Rmult_le_pos; lra); lra]. assert (0 <= X * (2 * a - L)) by (apply Rmult_le_pos; lra). assert (0 <= (a - X) * (a - X)) by apply Rle_0_sqr. lra. }
  assert (Mr : moderate r2).
  { split; [exact D5|]. split; [exact F5|]. apply Rabs_le. assert (5e7 <= large) by (apply Rle_trans with (bpow radix2 40); [cbn; lra|apply bpow_le; lia]). lra. }
  assert (Mz : moderate zero) by (split; [reflexivity|split; [exact I|]]; change (value zero) with 0; rewrite Rabs_R0; left; apply bpow_gt_0).
  assert (Wt : forall r q, q = ddiv r radius -> of_shells m q (if dlt q (r_min m) then Ok (v_min m) else if dlt (r_max m) q then Ok (v_max m) else spline_at (inter m) q)).
  { intros r q _. unfold of_shells. destruct (dlt q (r_min m)) eqn:C1; [left; split; [now apply dlt_less|reflexivity]|]. apply dlt_false in C1. right.
    destruct (dlt (r_max m) q) eqn:C2; [left; split; [exact C1|split; [now apply dlt_less|reflexivity]]|]. apply dlt_false in C2. right. now split. }
  rewrite (less_dlt zero r2 Mz Mr). change (value zero) with 0. destruct (Rlt_bool_spec 0 (value r2)) as [P|P].
  - destruct (root_value r2 D5 F5 (Rlt_le _ _ P)) as (F6 & W6). exists (droot r2). split; [now apply root_double|]. split; [exact F6|].
    set (s := sqrt (value r2)) in *. assert (S0 : 0 <= s) by apply sqrt_pos. assert (SS : s * s = value r2) by (apply sqrt_sqrt; lra).
    assert (Sa : s <= 1.01 * a) by (apply Rsqr_incr_0_var; [unfold Rsqr; rewrite SS; lra|lra]).
    pose proof (rnd_err s) as E6. rewrite <- W6, (Rabs_pos_eq s) in E6 by lra. 
    assert (Na : least_error <= unit_roundoff * (0.001 * a)) by (pose proof eta_small; assert (unit_roundoff * (0.001 * 1) <= unit_roundoff * (0.001 * a)) by (apply Rmult_le_compat_l; lra); lra).
    assert (Us : unit_roundoff * s <= unit_roundoff * (1.01 * a)) by (apply Rmult_le_compat_l; lra).
    assert (Ua : 0 < unit_roundoff * a <= / 1000000 * a) by (split; [apply Rmult_lt_0_compat; lra|apply Rmult_le_compat_r; lra]).
    apply Rabs_le_inv in E6. set (d := value (droot r2) - s) in *.
    assert (Hd : - (1.02 * (unit_roundoff * a)) <= d <= 1.02 * (unit_roundoff * a)) by lra.
    assert (Vs : V = unit_roundoff * a * a) by (unfold V; ring).
    assert (Hq : Rabs (d * (2 * s + d)) <= 2.2 * V).
    { rewrite Rabs_mult, Vs. apply Rle_trans with (1.02 * (unit_roundoff * a) * (2.15 * a)); [|rewrite <- Vs in *; replace (1.02 * (unit_roundoff * a) * (2.15 * a)) with (1.02 * 2.15 * (unit_roundoff * a * a)) by ring; lra].
      apply Rmult_le_compat; [apply Rabs_pos..|apply Rabs_le; lra|apply Rabs_le; lra]. }
    split; [rewrite W6; apply Rle_trans with (rnd 0); [right; symmetry; apply rnd_0|apply rnd_le; lra]|].
    split; [|now apply (Wt (droot r2))]. split; [exact BX|]. split; [exact BL|].
    replace (value (droot r2)) with (s + d) by (unfold d; ring). fold ex. apply Rabs_le_inv in Hq. apply Rabs_le. lra.
  - assert (LT : dlt (dabs r2) micro = true).
    { destruct (abs_value r2 D5) as (D6 & W6). rewrite less_dlt.
      - apply Rlt_bool_true. rewrite W6, Rabs_left1 by lra. pose proof micro_value.
        assert (Vm : V <= / 100000000) by (apply Rle_trans with (unit_roundoff * 49000000); [apply Rmult_le_compat_l; lra|unfold unit_roundoff; cbn; lra]). lra.
      - split; [exact D6|]. split; [now apply abs_finite|]. rewrite W6, Rabs_Rabsolu. apply Mr.
      - split; [reflexivity|]. split; [exact I|]. apply Rle_trans with 1; [|apply (bpow_le radix2 0 1000); lia]. unfold value, micro, SF2R, F2R. cbn. apply Rabs_le. lra. }
    rewrite LT. exists zero. change (value zero) with 0. split; [reflexivity|]. split; [exact I|]. split; [lra|]. split; [|now apply (Wt zero)].
    split; [exact BX|]. split; [exact BL|]. fold ex. apply Rabs_le. lra.
Qed.
Print Assumptions c99_earth.
Lemma value_four : value four = 4.
Proof. unfold value, four, SF2R, F2R. cbn. lra. Qed.
Example c99_earth_case : is_double one /\ is_double two /\ is_double four /\ 1 <= value two <= 7000 /\ 0 < value one /\ 0 <= value two <= value four /\ value four <= 2 * value two * value one /\
  earth_at one two (Shells half two one three []) four two = Ok one /\ earth_at one two (Shells half tenth one three []) four zero = Ok three.
Proof. rewrite value_one, value_two, value_four. repeat split; lra. Qed.

(** ** The Sun crossed off its centre *)
(** A neutrino that crosses the centre of the Sun: at a finite place inside, the rounded square of the radius is negative, and the answers are not numbers. *)
Definition sun_km : double := S754_finite false 5965185588133888 (-33).       (* 694439 *)
Definition sun_near : double := S754_finite false 5965185588133887 (-33).     (* the double below *)
Theorem c99_chord_refuted : finite sun_km /\ finite sun_near /\ less zero sun_near /\ less sun_near sun_km /\
  chord_radius sun_km zero sun_near = S754_nan /\
  forall first xs segs, xs <> [] -> segs <> [] -> chord_density first xs segs sun_km zero sun_near = Ok S754_nan /\ chord_ye first xs segs sun_km zero sun_near = Ok S754_nan.
Proof.
  split; [exact I|]. split; [exact I|]. split; [vm_compute; reflexivity|]. split; [vm_compute; reflexivity|].
  assert (E : chord_radius sun_km zero sun_near = S754_nan) by (vm_compute; reflexivity). split; [exact E|].
  intros first xs segs Hx Hs. unfold chord_density, chord_ye. rewrite E, (sun_nan first xs segs Hx Hs). split; [reflexivity|]. unfold half_more. cbn [obind]. now autorewrite with nans.
Qed.
Print Assumptions c99_chord_refuted.
(** A chord at distance 3 of a ball of radius 5: the place 4 on it is the nearest, at 3/5. *)
Example c99_chord_case : let five := dadd four one in chord_radius five three four = ddiv three five /\ chord_radius five three zero = one /\ chord_radius five three (dadd four four) = one.
Proof. vm_compute. repeat split. Qed.

(** ** Tables of a medium *)
Lemma inside_node xs i : increasing xs -> (i < length xs)%nat -> dlt (nth i xs S754_nan) (nth 0 xs S754_nan) = false /\ dlt (nth (length xs - 1) xs S754_nan) (nth i xs S754_nan) = false.
Proof.
  intros H L. split; apply dlt_false; intro K.
  - destruct i as [|i]; [now apply (less_irrefl (nth 0 xs S754_nan))|]. apply (less_irrefl (nth 0 xs S754_nan)). apply less_trans with (nth (S i) xs S754_nan); [apply H; lia|exact K].
  - destruct (Nat.eq_dec i (length xs - 1)) as [->|N]; [now apply (less_irrefl (nth (length xs - 1) xs S754_nan))|].
    apply (less_irrefl (nth i xs S754_nan)). apply less_trans with (nth (length xs - 1) xs S754_nan); [apply H; lia|exact K].
Qed.
Lemma variable_eq cm xs segs x : xs <> [] -> variable_at cm xs segs x =
  if dlt (ddiv x cm) (nth 0 xs S754_nan) || dlt (nth (length xs - 1) xs S754_nan) (ddiv x cm) then Ok zero else spline_at segs (ddiv x cm).
Proof. intros N. unfold variable_at. rewrite last_nth. destruct xs; [congruence|reflexivity]. Qed.
Lemma sun_eq first xs segs x : xs <> [] -> sun_radial first xs segs x =
  if dlt x (nth 0 xs S754_nan) then Ok first else if dlt (nth (length xs - 1) xs S754_nan) x then Ok zero else spline_at segs x.
Proof. intros N. unfold sun_radial. rewrite last_nth. destruct xs; [congruence|reflexivity]. Qed.
(** A medium given by a table: what it answers outside, before and at the nodes (all but the last one). *)
Theorem c99_table_media : forall cm radius xs ys segs first x, increasing xs -> spline_of xs ys = Ok segs -> increasing (map px segs) ->
  let outside_left q := less q (nth 0 xs S754_nan) in let outside_right q := less (nth (length xs - 1) xs S754_nan) q in
  (outside_left (ddiv x cm) \/ outside_right (ddiv x cm) -> variable_at cm xs segs x = Ok zero) /\
  (outside_left (ddiv x radius) -> sun_density first xs segs radius x = Ok first) /\
  (~ outside_left (ddiv x radius) -> outside_right (ddiv x radius) -> sun_density first xs segs radius x = Ok zero) /\
  forall i s, nth_error segs i = Some s -> finite (px s) -> finite (p0 s) -> finite (p1 s) -> finite (p2 s) -> finite (p3 s) ->
    (ddiv x cm = nth i xs S754_nan -> exists v, variable_at cm xs segs x = Ok v /\ same v (nth i ys S754_nan)) /\
    (ddiv x radius = nth i xs S754_nan -> exists v, sun_density first xs segs radius x = Ok v /\ same v (nth i ys S754_nan)).
Proof.
  intros cm radius xs ys segs first x Hi H Hp outl outr.
  destruct (c99_spline_made xs ys) as [(l & E & L3 & _ & Ll & _)|[E _]]; [|congruence]. rewrite H in E. injection E as <-.
  assert (Ne : xs <> []) by (intros ->; cbn in L3; lia). unfold sun_density. rewrite variable_eq, sun_eq by exact Ne.
  split; [|split; [|split]].
  - intros [K|K]; apply dlt_less in K; unfold outl, outr in *; rewrite K; [reflexivity|]. now rewrite orb_true_r.
  - intros K. apply dlt_less in K. now rewrite K.
  - intros K K'. apply dlt_false in K. apply dlt_less in K'. now rewrite K, K'.
  - intros i s Hs F1 F2 F3 F4 F5. assert (Li : (i < length xs)%nat) by (assert (i < length segs)%nat by (apply nth_error_Some; congruence); lia).
    destruct (inside_node xs i Hi Li) as [A B]. destruct (c99_spline_node xs ys segs H Hp i s Hs F1 F2 F3 F4 F5) as (v & Hv & Hsame).
    split; intros ->; exists v; rewrite A, B; now split.
Qed.
Print Assumptions c99_table_media.
Example c99_table_media_case : exists segs, spline_of [one; three; four] [half; two; four] = Ok segs /\ increasing [one; three; four] /\ increasing (map px segs) /\ Forall (fun s => finite (p0 s) /\ finite (p1 s) /\ finite (p2 s) /\ finite (p3 s)) segs /\
  ddiv (dmul two three) two = three /\ variable_at two [one; three; four] segs (dmul two three) = Ok two /\ variable_at two [one; three; four] segs one = Ok zero /\
  sun_density tenth [one; three; four] segs two one = Ok tenth /\ sun_density tenth [one; three; four] segs two (dmul four four) = Ok zero.
Proof.
  eexists. split; [vm_compute; reflexivity|]. split; [|split; [|split; [repeat constructor|repeat split; vm_compute; reflexivity]]].
  - split; [repeat constructor; discriminate|]. intros [|[|[|i]]] [|[|[|j]]] H G; cbn in G; try lia; vm_compute; reflexivity.
  - split; [repeat constructor; discriminate|]. intros [|[|[|i]]] [|[|[|j]]] H G; cbn in G; try lia; vm_compute; reflexivity.
Qed.

(** The electron fraction of the Sun is half of one more than the hydrogen fraction. *)
Lemma value_half : value half = / 2.
Proof. unfold value, half, SF2R, F2R. cbn. lra. Qed.
Lemma half_more_value : forall h, is_double h -> finite h -> 0 <= value h <= 1 ->
  exists v, half_more (Ok h) = Ok v /\ is_double v /\ finite v /\ Rabs (value v - (1 + value h) / 2) <= 3 * unit_roundoff /\ / 2 <= value v <= 1.
Proof.
  intros h Dh Fh Bh. unfold half_more. cbn [obind]. eexists. split; [reflexivity|].
  pose proof u_range as U. pose proof eta_small as N.
  assert (T : Rabs (rnd (value one + value h)) < top) by (apply rnd_top; rewrite value_one; rewrite Rabs_pos_eq by lra; apply Rle_trans with (bpow radix2 1); [cbn; lra|apply bpow_le; lia]).
  destruct (add_value one h double_one Dh I Fh T) as (F1 & W1). pose proof (add_double one h double_one Dh) as D1. pose proof (rnd_add_err one h double_one Dh) as E1. rewrite <- W1 in E1.
  assert (B1 : 1 <= value (dadd one h) <= 2).
  { rewrite W1, value_one. split; [rewrite <- rnd_1 at 1; apply rnd_le; lra|]. apply Rle_trans with (rnd (value two)); [apply rnd_le; rewrite value_two; lra|]. rewrite rnd_double by reflexivity. rewrite value_two. lra. }
  rewrite value_one in E1. rewrite (Rabs_pos_eq (1 + value h)) in E1 by lra. set (s := dadd one h) in *.
  assert (Hb : / 2 <= value half * value s <= 1) by (rewrite value_half; lra).
  assert (T2 : Rabs (rnd (value half * value s)) < top) by (apply rnd_top; rewrite Rabs_pos_eq by lra; apply Rle_trans with 1; [lra|apply (bpow_le radix2 0 1001); lia]).
  destruct (mul_value half s eq_refl D1 I F1 T2) as (F2 & W2). pose proof (rnd_err (value half * value s)) as E2. rewrite <- W2 in E2. rewrite (Rabs_pos_eq (value half * value s)) in E2 by lra.
  split; [now apply mul_double|]. split; [exact F2|].
  assert (unit_roundoff * (1 + value h) <= unit_roundoff * 2) by (apply Rmult_le_compat_l; lra).
  assert (unit_roundoff * (value half * value s) <= unit_roundoff * 1) by (apply Rmult_le_compat_l; lra).
  split.
  - rewrite value_half in *. apply Rabs_le_inv in E1. apply Rabs_le_inv in E2. apply Rabs_le. lra.
  - rewrite W2. split; [|apply Rle_trans with (rnd 1); [apply rnd_le; lra|right; apply rnd_1]].
    apply Rle_trans with (rnd (value half)); [rewrite rnd_double by reflexivity; rewrite value_half; lra|apply rnd_le; rewrite value_half in *; lra].
Qed.
Theorem c99_sun_ye : forall first xs segs radius x h, sun_density first xs segs radius x = Ok h -> is_double h -> finite h -> 0 <= value h <= 1 ->
  exists v, sun_ye first xs segs radius x = Ok v /\ is_double v /\ finite v /\ Rabs (value v - (1 + value h) / 2) <= 3 * unit_roundoff /\ / 2 <= value v <= 1.
Proof. intros first xs segs radius x h E. unfold sun_ye, sun_density in *. rewrite E. apply half_more_value. Qed.
(** The same on a chord through the Sun. *)
Theorem c99_chord_ye : forall first xs segs radius b x h, chord_density first xs segs radius b x = Ok h -> is_double h -> finite h -> 0 <= value h <= 1 ->
  exists v, chord_ye first xs segs radius b x = Ok v /\ is_double v /\ finite v /\ Rabs (value v - (1 + value h) / 2) <= 3 * unit_roundoff /\ / 2 <= value v <= 1.
Proof. intros first xs segs radius b x h E. unfold chord_ye, chord_density in *. rewrite E. apply half_more_value. Qed.
Print Assumptions c99_chord_ye.
Example c99_chord_ye_case : exists segs v, spline_of [one; three; four] [half; half; half] = Ok segs /\ chord_density tenth [one; three; four] segs two zero zero = Ok half /\
  chord_ye tenth [one; three; four] segs two zero zero = Ok v /\ v = ddiv three four.
Proof.
  eexists. exists (ddiv three four). split; [vm_compute; reflexivity|]. split; [vm_compute; reflexivity|]. split; [vm_compute; reflexivity|reflexivity].
Qed.
Print Assumptions c99_sun_ye.
Example c99_sun_ye_case : exists segs h v, spline_of [one; three; four] [half; half; half] = Ok segs /\ sun_density tenth [one; three; four] segs two (dmul two three) = Ok h /\ h = half /\ is_double h /\ 0 <= value h <= 1 /\
  sun_ye tenth [one; three; four] segs two (dmul two three) = Ok v /\ v = ddiv three four.
Proof.
  eexists. exists half, (ddiv three four). split; [vm_compute; reflexivity|]. split; [vm_compute; reflexivity|]. split; [reflexivity|]. split; [reflexivity|].
  split; [rewrite value_half; lra|]. split; [vm_compute; reflexivity|reflexivity].
Qed.

(** A place no chord passes, one where the square of the distance from the
    centre comes out below -1e-6 km^2, is refused. *)
Lemma micro_above : value micro <= 1.0000001e-6.
Proof. unfold value, micro, SF2R, F2R. cbn. lra. Qed.
Theorem c99_no_place : forall km radius m baseline x,
  let xkm := ddiv x km in let r2 := dsub (dadd (dmul radius radius) (dmul xkm xkm)) (dmul (ddiv baseline km) xkm) in
  is_double r2 -> finite r2 -> value r2 <= - 1.0000001e-6 -> earth_at km radius m baseline x = Throw RuntimeError.
Proof.
  intros km radius m baseline x xkm r2 D F H. unfold earth_at. change (dsub (dadd (sqr radius) (sqr (ddiv x km))) (dmul (ddiv baseline km) (ddiv x km))) with r2. cbv zeta.
  assert (A : is_double (dabs r2) /\ finite (dabs r2) /\ value (dabs r2) = - value r2).
  { destruct r2 as [b|b| |b q e]; cbn [finite] in F; try tauto.
    - exfalso. change (value (S754_zero b)) with 0 in H. lra.
    - split; [exact D|]. split; [exact I|]. destruct b.
      + unfold value, SF2R, F2R, dabs, SFabs. cbn [Fnum Fexp cond_Zopp]. rewrite <- Ropp_mult_distr_l_reverse, <- opp_IZR. reflexivity.
      + exfalso. assert (0 < value (S754_finite false q e)) by (apply F2R_gt_0; reflexivity). lra. }
  destruct A as (DA & FA & VA). pose proof micro_above.
  destruct (dlt zero r2) eqn:C. { exfalso. apply dlt_less in C. apply less_value in C; trivial; try reflexivity; try exact I. change (value zero) with 0 in C. lra. }
  destruct (dlt (dabs r2) micro) eqn:C2; [|reflexivity]. exfalso. apply dlt_less in C2. apply less_value in C2; trivial; try reflexivity; try exact I. lra.
Qed.
(** radius 1, asked one unit along a chord of length 3 *)
Example c99_no_place_case : forall m, earth_at one one m three one = Throw RuntimeError.
Proof.
  intro m. apply c99_no_place; [reflexivity|exact I|]. replace (dsub _ _) with (S754_finite true 4503599627370496 (-52)) by reflexivity.
  unfold value, SF2R, F2R. cbn. lra.
Qed.
Print Assumptions c99_no_place.
(** ** The air above the Earth *)
Lemma opp_value x : is_double x -> finite x -> is_double (dopp x) /\ finite (dopp x) /\ value (dopp x) = - value x.
Proof.
  intros X F. destruct (bits_of x X) as [a ->]. rewrite value_bits. destruct a as [s|s| |s m e B]; cbn in *; try tauto.
  - repeat split. unfold value. cbn. lra.
  - split; [exact B|]. split; [exact I|]. unfold value. cbn. unfold F2R. cbn [Fnum Fexp]. destruct s; cbn [negb cond_Zopp]; rewrite ?opp_IZR; cbn [Z.opp]; try (change (Z.neg m) with (- Z.pos m)%Z; rewrite opp_IZR); ring.
Qed.
Lemma air_value : Rabs (value air - 0.0012) <= unit_roundoff /\ Rabs (value scale_height - 7.594) <= 8 * unit_roundoff /\ Rabs (value air_ye - 0.494) <= unit_roundoff.
Proof. unfold value, air, scale_height, air_ye, SF2R, F2R, unit_roundoff. cbn. repeat split; apply Rabs_le; lra. Qed.
(** Where the answer comes from: the innermost shell, the outermost one, the air or the table. *)
Theorem c99_air : forall exp km earth atm m cosphi L x, let r := atm_radius km earth atm cosphi L x in let q := ddiv r atm in
  ((less q (r_min m) -> atm_density exp km earth atm m cosphi L x = Ok (v_min m) /\ atm_ye km earth atm m cosphi L x = Ok (v_min m)) /\
   (~ less q (r_min m) -> less (r_max m) q -> less r earth -> atm_density exp km earth atm m cosphi L x = Ok (v_max m) /\ atm_ye km earth atm m cosphi L x = Ok (v_max m)) /\
   (~ less q (r_min m) -> ~ less (r_max m) q -> ~ less earth r -> atm_density exp km earth atm m cosphi L x = spline_at (inter m) q /\ atm_ye km earth atm m cosphi L x = spline_at (inter m) q)) /\
  (~ less q (r_min m) -> less earth r -> exists ye, atm_ye km earth atm m cosphi L x = Ok ye /\ Rabs (value ye - 0.494) <= unit_roundoff).
Proof.
  intros exp km earth atm m cosphi L x r q. unfold atm_density, atm_ye, atm_within. fold r. cbv zeta. fold q. repeat split.
  1,2: intros; now rewrite (proj2 (dlt_less q (r_min m))).
  - intros. now rewrite (proj2 (dlt_false q (r_min m))), (proj2 (dlt_less (r_max m) q)), (proj2 (dlt_less r earth)).
  - intros. now rewrite (proj2 (dlt_false q (r_min m))), (proj2 (dlt_less (r_max m) q)), (proj2 (dlt_less r earth)).
  - intros. now rewrite (proj2 (dlt_false q (r_min m))), (proj2 (dlt_false (r_max m) q)), (proj2 (dlt_false earth r)).
  - intros. now rewrite (proj2 (dlt_false q (r_min m))), (proj2 (dlt_false (r_max m) q)), (proj2 (dlt_false earth r)).
  - intros H K. rewrite (proj2 (dlt_false q (r_min m))) by exact H. 
    assert (Z : dlt r earth = false) by (apply dlt_false; intro Z; apply (less_irrefl r); now apply less_trans with earth).
    rewrite Z, andb_false_r, (proj2 (dlt_less earth r)) by exact K. exists air_ye. split; [reflexivity|apply air_value].
Qed.
Print Assumptions c99_air.
(** The air is thinner the higher, and nowhere denser than 0.0012, if exp is monotone and not above 1 for numbers that are not positive. *)
Theorem c99_air_thins : forall exp km earth atm m cosphi L x1 x2, let r1 := atm_radius km earth atm cosphi L x1 in let r2 := atm_radius km earth atm cosphi L x2 in
  (forall a, is_double a -> finite a -> value a <= 0 -> is_double (exp a) /\ finite (exp a) /\ 0 <= value (exp a) <= 1) ->
  (forall a b, is_double a -> is_double b -> finite a -> finite b -> value a <= value b <= 0 -> value (exp a) <= value (exp b)) ->
  moderate earth -> moderate r1 -> moderate r2 -> value earth < value r1 <= value r2 -> ~ less (ddiv r1 atm) (r_min m) -> ~ less (ddiv r2 atm) (r_min m) ->
  exists d1 d2, atm_density exp km earth atm m cosphi L x1 = Ok d1 /\ atm_density exp km earth atm m cosphi L x2 = Ok d2 /\ 0 <= value d2 <= value d1 /\ value d1 <= value air.
Proof.
  intros exp km earth atm m cosphi L x1 x2 r1 r2 He Hm Me M1 M2 Hr N1 N2. pose proof air_value as (A1 & A2 & _). pose proof u_range as U. apply Rabs_le_inv in A1. apply Rabs_le_inv in A2.
  set (arg := fun r => ddiv (dopp (dsub r earth)) scale_height).
  assert (Ag : forall r, moderate r -> value earth <= value r -> is_double (arg r) /\ finite (arg r) /\ value (arg r) = rnd (- rnd (value r - value earth) / value scale_height) /\ value (arg r) <= 0).
  { intros r (Dr & Fr & Br) Le. destruct Me as (De & Fe & Be). apply Rabs_le_inv in Br. apply Rabs_le_inv in Be. pose proof large_2 as L2.
    assert (T : Rabs (value r - value earth) <= bpow radix2 1001) by (rewrite <- L2; apply Rabs_le; lra).
    destruct (sub_value r earth Dr De Fr Fe (rnd_top _ T)) as (F1 & W1). pose proof (sub_double r earth Dr De) as D1. destruct (opp_value _ D1 F1) as (D2 & F2 & W2).
    assert (P : 0 <= rnd (value r - value earth)) by (apply Rle_trans with (rnd 0); [right; symmetry; apply rnd_0|apply rnd_le; lra]).
    assert (Q : rnd (value r - value earth) <= 2 * large).
    { rewrite L2. apply Rle_trans with (rnd (bpow radix2 1001)); [apply rnd_le; rewrite Rabs_pos_eq in T; lra|]. right.
      apply round_generic; [apply valid_rnd_N|apply generic_format_bpow; vm_compute; discriminate]. }
    assert (LP : 0 < large) by apply bpow_gt_0.
    assert (I7 : 0 < / value scale_height <= 1) by (split; [apply Rinv_0_lt_compat; lra|rewrite <- Rinv_1; apply Rinv_le_contravar; lra]).
    assert (B : Rabs (value (dopp (dsub r earth)) / value scale_height) <= bpow radix2 1001).
    { unfold Rdiv. rewrite W2, W1, Rabs_mult, Rabs_Ropp, (Rabs_pos_eq (rnd _)), (Rabs_pos_eq (/ _)) by lra. rewrite <- L2. apply Rle_trans with (2 * large * 1); [apply Rmult_le_compat; lra|lra]. }
    destruct (div_value _ scale_height D2 eq_refl F2 I ltac:(lra) (rnd_top _ B)) as (F3 & W3). fold (arg r) in F3, W3.
    split; [now apply div_double|]. split; [exact F3|]. rewrite W2, W1 in W3. split; [exact W3|]. rewrite W3. apply Rle_trans with (rnd 0); [apply rnd_le|right; apply rnd_0].
    unfold Rdiv. apply Rle_trans with (0 * / value scale_height); [apply Rmult_le_compat_r; lra|lra]. }
  destruct (Ag r1 M1 ltac:(lra)) as (Da1 & Fa1 & Wa1 & Na1). destruct (Ag r2 M2 ltac:(lra)) as (Da2 & Fa2 & Wa2 & Na2).
  assert (Le : value (arg r2) <= value (arg r1)).
  { rewrite Wa1, Wa2. apply rnd_le. unfold Rdiv. apply Rmult_le_compat_r; [left; apply Rinv_0_lt_compat; lra|]. apply Ropp_le_contravar, rnd_le. lra. }
  destruct (He _ Da1 Fa1 Na1) as (De1 & Fe1 & Be1). destruct (He _ Da2 Fa2 Na2) as (De2 & Fe2 & Be2). pose proof (Hm _ _ Da2 Da1 Fa2 Fa1 (conj Le Na1)) as Lx.
  assert (Mu : forall e, is_double e -> finite e -> 0 <= value e <= 1 -> finite (dmul air e) /\ value (dmul air e) = rnd (value air * value e)).
  { intros e Dx Fx Bx. apply mul_value; [reflexivity|exact Dx|exact I|exact Fx|]. apply rnd_top. apply Rle_trans with 1; [|apply (bpow_le radix2 0 1001); lia].
    rewrite Rabs_mult, !Rabs_pos_eq by lra. apply Rle_trans with (1 * 1); [apply Rmult_le_compat; lra|lra]. }
  destruct (Mu _ De1 Fe1 Be1) as (Fm1 & Wm1). destruct (Mu _ De2 Fe2 Be2) as (Fm2 & Wm2).
  assert (Out : forall x r, r = atm_radius km earth atm cosphi L x -> moderate r -> value earth < value r -> ~ less (ddiv r atm) (r_min m) -> atm_density exp km earth atm m cosphi L x = Ok (dmul air (exp (arg r)))).
  { intros x r -> Mr Lr Nr. unfold atm_density, atm_within. cbv zeta. rewrite (proj2 (dlt_false _ (r_min m))) by exact Nr.
    assert (Z1 : dlt (atm_radius km earth atm cosphi L x) earth = false) by (rewrite less_dlt by assumption; apply Rlt_bool_false; lra).
    assert (Z2 : dlt earth (atm_radius km earth atm cosphi L x) = true) by (rewrite less_dlt by assumption; now apply Rlt_bool_true).
    now rewrite Z1, andb_false_r, Z2. }
  exists (dmul air (exp (arg r1))), (dmul air (exp (arg r2))). split; [apply Out; trivial; lra|]. split; [apply Out; trivial; lra|]. rewrite Wm1, Wm2.
  split; [split; [apply Rle_trans with (rnd 0); [right; symmetry; apply rnd_0|apply rnd_le; apply Rmult_le_pos; lra]|apply rnd_le; apply Rmult_le_compat_l; lra]|].
  apply Rle_trans with (rnd (value air)); [apply rnd_le; apply Rle_trans with (value air * 1); [apply Rmult_le_compat_l; lra|lra]|right; now apply rnd_double].
Qed.
Print Assumptions c99_air_thins.
(** A shower from above: the Earth of radius 3, the air up to 4. *)
Example c99_air_case : let m := Shells half (ddiv three four) half one [] in let f := fun x : double => if dlt x zero then half else one in
  moderate three /\ moderate (atm_radius one three four one one zero) /\ atm_radius one three four one one zero = four /\
  less three (atm_radius one three four one one zero) /\ atm_density f one three four m one one zero = Ok (dmul air half) /\ atm_ye one three four m one one zero = Ok air_ye /\
  atm_density f one three four m one one four = Ok half.
Proof.
  assert (L : forall z, Rabs z <= 4 -> Rabs z <= large) by (intros z H; eapply Rle_trans; [exact H|]; apply Rle_trans with (bpow radix2 2); [cbn; lra|apply bpow_le; lia]).
  assert (E : atm_radius one three four one one zero = four) by (vm_compute; reflexivity). cbv zeta. rewrite E.
  split; [split; [reflexivity|split; [exact I|apply L; rewrite value_three; apply Rabs_le; lra]]|]. split; [split; [reflexivity|split; [exact I|apply L; rewrite value_four; apply Rabs_le; lra]]|].
  repeat split; vm_compute; reflexivity.
Qed.

(** ** Cross sections from tables *)
(** Below 10 GeV the smallest positive double, if the table starts above that; below the table its first value in proportion; else the table. *)
Theorem c99_total : forall log10 pow10 ten emin emax least segs e, ~ less emax e ->
  (less e ten -> less ten emin -> total_at log10 pow10 ten emin emax least segs e = Ok least) /\
  (~ (less e ten /\ less ten emin) -> ~ less e emin -> forall v, spline_at segs (log10 e) = Ok v -> total_at log10 pow10 ten emin emax least segs e = Ok (pow10 v)) /\
  (~ (less e ten /\ less ten emin) -> less e emin -> ~ less emax emin -> forall v, spline_at segs (log10 emin) = Ok v ->
     is_double e -> is_double emin -> finite e -> finite emin -> 0 <= value e -> is_double (pow10 v) -> finite (pow10 v) -> Rabs (value (pow10 v)) <= large ->
     exists w, total_at log10 pow10 ten emin emax least segs e = Ok w /\ is_double w /\ finite w /\
       Rabs (value w - value (pow10 v) * (value e / value emin)) <= 3 * (unit_roundoff * Rabs (value (pow10 v))) + 2 * least_error).
Proof.
  intros log10 pow10 ten emin emax least segs e H0. assert (N0 : dlt emax e = false) by now apply dlt_false.
  unfold total_at, total_inside. rewrite N0. split; [|split].
  - intros H1 H2. apply dlt_less in H1. apply dlt_less in H2. now rewrite H1, H2.
  - intros H1 H2 v Hv. assert (B : dlt e ten && dlt ten emin = false).
    { destruct (dlt e ten) eqn:E1; [|reflexivity]. destruct (dlt ten emin) eqn:E2; [|reflexivity]. exfalso. apply H1. split; now apply dlt_less. }
    rewrite B. apply dlt_false in H2. rewrite H2, Hv. reflexivity.
  - intros H1 H2 H3 v Hv De Dm Fe Fm Pe Dp Fp Bp. assert (B : dlt e ten && dlt ten emin = false).
    { destruct (dlt e ten) eqn:E1; [|reflexivity]. destruct (dlt ten emin) eqn:E2; [|reflexivity]. exfalso. apply H1. split; now apply dlt_less. }
    rewrite B. pose proof H2 as L. apply dlt_less in H2. apply dlt_false in H3. rewrite H2, H3, Hv. cbn [obind]. eexists. split; [reflexivity|].
    apply less_value in L; try assumption. pose proof u_range as U. pose proof eta_pos as N1. pose proof eta_small as N2.
    assert (Q : 0 <= value e / value emin <= 1).
    { split; [apply Rmult_le_pos; [lra|left; apply Rinv_0_lt_compat; lra]|]. apply Rmult_le_reg_r with (value emin); [lra|]. unfold Rdiv. rewrite Rmult_assoc, Rinv_l; lra. }
    assert (Q' : 0 <= rnd (value e / value emin) <= 1) by (split; [apply Rle_trans with (rnd 0); [right; symmetry; apply rnd_0|apply rnd_le; lra]|apply Rle_trans with (rnd 1); [apply rnd_le; lra|right; apply rnd_1]]).
    assert (T : Rabs (rnd (value e / value emin)) < top) by (apply rnd_top; rewrite Rabs_pos_eq by lra; apply Rle_trans with 1; [lra|apply (bpow_le radix2 0 1001); lia]).
    destruct (div_value e emin De Dm Fe Fm ltac:(lra) T) as (F1 & W1). pose proof (div_double e emin De Dm) as D1. pose proof (rnd_err (value e / value emin)) as E1. rewrite <- W1 in *. rewrite (Rabs_pos_eq (value e / value emin)) in E1 by lra.
    set (f := ddiv e emin) in *. set (p := pow10 v) in *.
    assert (Pb : Rabs (value p * value f) <= Rabs (value p)).
    { rewrite Rabs_mult, (Rabs_pos_eq (value f)) by lra. pose proof (Rabs_pos (value p)). apply Rle_trans with (Rabs (value p) * 1); [apply Rmult_le_compat_l; lra|lra]. }
    assert (T2 : Rabs (rnd (value p * value f)) < top) by (apply rnd_top; pose proof large_2; pose proof (bpow_gt_0 radix2 1000); fold large in *; lra).
    destruct (mul_value p f Dp D1 Fp F1 T2) as (F2 & W2). pose proof (rnd_err (value p * value f)) as E2. rewrite <- W2 in E2.
    split; [now apply mul_double|]. split; [exact F2|].
    assert (X1 : unit_roundoff * Rabs (value p * value f) <= unit_roundoff * Rabs (value p)) by (apply Rmult_le_compat_l; lra).
    assert (X2 : Rabs (value p * (value f - value e / value emin)) <= Rabs (value p) * (1.5 * unit_roundoff)).
    { rewrite Rabs_mult. apply Rmult_le_compat_l; [apply Rabs_pos|]. assert (unit_roundoff * (value e / value emin) <= unit_roundoff * 1) by (apply Rmult_le_compat_l; lra). lra. }
    replace (value (dmul p f) - value p * (value e / value emin)) with ((value (dmul p f) - value p * value f) + value p * (value f - value e / value emin)) by ring.
    eapply Rle_trans; [apply Rabs_triang|]. assert (0 <= unit_roundoff * Rabs (value p)) by (apply Rmult_le_pos; [lra|apply Rabs_pos]). lra.
Qed.
Print Assumptions c99_total.
Example c99_total_case : exists segs, spline_of [one; three; four] [half; two; four] = Ok segs /\
  total_at (fun x => x) (fun x => x) half one four tenth segs one = Ok half /\ total_at (fun x => x) (fun x => x) half one four tenth segs (dadd half tenth) = Ok (dmul half (dadd half tenth)) /\
  total_at (fun x => x) (fun x => x) half one four tenth segs tenth = Ok tenth /\ is_double (dadd half tenth) /\ less (dadd half tenth) one.
Proof. eexists. split; [vm_compute; reflexivity|]. repeat split; vm_compute; reflexivity. Qed.

(** A final energy at or below the table's first one: the lesser of the table there and at zero. *)
Theorem c99_single : forall log10 pow10 gev emin emax least table e1 e2, ~ less emax e1 -> number e1 -> number e2 -> number emin ->
  (at_most e1 emin -> single_at log10 pow10 gev emin emax least table e1 e2 = Ok least) /\
  (less emin e1 -> less emin e2 -> forall a, table (log10 e1) (ddiv (dsub e2 emin) (dsub e1 emin)) = Ok a -> single_at log10 pow10 gev emin emax least table e1 e2 = Ok (ddiv (pow10 a) (ddiv e1 gev))) /\
  (less emin e1 -> at_most e2 emin -> forall a b, number a -> number b -> table (log10 e1) (ddiv (dsub e2 emin) (dsub e1 emin)) = Ok a -> table (log10 e1) zero = Ok b ->
     exists c, single_at log10 pow10 gev emin emax least table e1 e2 = Ok (ddiv (pow10 c) (ddiv e1 gev)) /\ at_most c a /\ at_most c b /\ (c = a \/ c = b)).
Proof.
  intros log10 pow10 gev emin emax least table e1 e2 H0 N1 N2 Nm. assert (Z : dlt emax e1 = false) by now apply dlt_false.
  assert (Dle : forall x y, dle x y = true <-> at_most x y).
  { intros x y. unfold dle, SFleb, at_most, less, same. destruct (SFcompare x y) as [[]|]; split; try tauto; try congruence; intros [K|K]; congruence. }
  assert (Nle : forall x, number x -> less emin x -> dle x emin = false).
  { intros x Nx K. destruct (dle x emin) eqn:E; [|reflexivity]. apply Dle in E. exfalso. apply (less_irrefl emin). now apply less_at_most with x. }
  assert (Self : forall x, number x -> at_most x x) by (intros x Nx; apply not_less; trivial; apply less_irrefl).
  unfold single_at. rewrite Z. split; [|split].
  - intros H. apply Dle in H. now rewrite H.
  - intros H1 H2 a Ha. rewrite (Nle e1 N1 H1). cbv zeta. rewrite Ha. cbn [obind]. now rewrite (Nle e2 N2 H2).
  - intros H1 H2 a b Na Nb Ha Hb. rewrite (Nle e1 N1 H1). cbv zeta. rewrite Ha. cbn [obind]. rewrite (proj2 (Dle e2 emin) H2), Hb. cbn [obind].
    destruct (dlt b a) eqn:E.
    + apply dlt_less in E. exists b. split; [reflexivity|]. split; [now left|]. split; [now apply Self|now right].
    + apply dlt_false in E. exists a. split; [reflexivity|]. split; [now apply Self|]. split; [|now left]. now apply not_less.
Qed.
Print Assumptions c99_single.
Example c99_single_case : let table := fun _ z : double => if dlt z zero then Ok three else Ok two in
  single_at (fun x => x) (fun x => x) one two four tenth table three one = Ok (ddiv two three) /\ single_at (fun x => x) (fun x => x) one two four tenth table two one = Ok tenth /\
  single_at (fun x => x) (fun x => x) one two four tenth table three three = Ok (ddiv two three) /\ less two three /\ at_most one two /\ ~ less four three.
Proof. repeat split; try (vm_compute; reflexivity); [left; vm_compute; reflexivity|vm_compute; discriminate]. Qed.
(** A table without data answers zero wherever it is asked, also at no number. *)
Theorem c99_no_data : forall c xs ys x y, bicubic_at c xs ys true x y = Ok zero.
Proof. reflexivity. Qed.
Print Assumptions c99_no_data.
Example c99_no_data_case : bicubic_at (fun _ _ _ _ => one) [] [] true S754_nan infinity = Ok zero.
Proof. reflexivity. Qed.

(** ** Tables of the first version *)
(** A number turned into an index: the integer part, undefined from 2^64 on and down from -1. *)
Theorem c99_index : forall x, is_double x -> finite x ->
  (value x <= -1 -> to_size x = UB) /\ (bpow radix2 64 <= value x -> to_size x = UB) /\
  (-1 < value x < 0 -> to_size x = Ok 0%nat) /\
  (0 <= value x < bpow radix2 64 -> exists n, to_size x = Ok n /\ INR n <= value x < INR n + 1).
Proof.
  intros x Dx Fx. destruct x as [s|s| |s m e]; try contradiction Fx.
  - change (value (S754_zero s)) with 0. cbn [to_size]. pose proof (bpow_gt_0 radix2 64). repeat split; try (intros; exfalso; lra). intros _. exists 0%nat. split; [reflexivity|]. cbn. lra.
  - assert (W : value (S754_finite s m e) = (if s then -1 else 1) * (IZR (Z.pos m) * bpow radix2 e)).
    { unfold value, SF2R, F2R. cbn [Fnum Fexp]. destruct s; cbn [cond_Zopp]; [change (- Z.pos m)%Z with (Z.opp (Z.pos m)); rewrite opp_IZR|]; ring. }
    set (y := IZR (Z.pos m) * bpow radix2 e) in *. assert (P : 0 < y) by (apply Rmult_lt_0_compat; [now apply IZR_lt|apply bpow_gt_0]).
    set (z := Z.shiftl (Z.pos m) e).
    assert (Hz : IZR z <= y < IZR z + 1).
    { unfold z, y. destruct (Z.le_gt_cases 0 e) as [E|E].
      - rewrite Z.shiftl_mul_pow2 by exact E. rewrite mult_IZR. replace (IZR (2 ^ e)) with (bpow radix2 e) by (rewrite <- IZR_Zpower by exact E; reflexivity). lra.
      - replace e with (- (- e))%Z by lia. set (k := (- e)%Z). assert (K : (0 < k)%Z) by (unfold k; lia). rewrite Z.shiftl_opp_r, Z.shiftr_div_pow2 by lia.
        assert (Kp : (0 < 2 ^ k)%Z) by (apply Z.pow_pos_nonneg; lia). pose proof (Z.div_mod (Z.pos m) (2 ^ k) ltac:(lia)) as DM. pose proof (Z.mod_pos_bound (Z.pos m) (2 ^ k) Kp) as MB.
        rewrite bpow_opp. replace (bpow radix2 k) with (IZR (2 ^ k)) by (rewrite <- IZR_Zpower by lia; reflexivity).
        apply IZR_lt in Kp. set (q := (Z.pos m / 2 ^ k)%Z) in *. set (r := (Z.pos m mod 2 ^ k)%Z) in *. rewrite DM, plus_IZR, mult_IZR. destruct MB as [M1 M2]. apply IZR_le in M1. apply IZR_lt in M2.
        replace ((IZR (2 ^ k) * IZR q + IZR r) * / IZR (2 ^ k)) with (IZR q + IZR r * / IZR (2 ^ k)) by (field; lra).
        assert (0 <= IZR r * / IZR (2 ^ k) < 1); [|lra]. split; [apply Rmult_le_pos; [lra|left; now apply Rinv_0_lt_compat]|].
        apply Rmult_lt_reg_r with (IZR (2 ^ k)); [lra|]. rewrite Rmult_assoc, Rinv_l; lra. }
    assert (Zp : (0 <= z)%Z) by (unfold z; apply Z.shiftl_nonneg; lia).
    assert (T64 : bpow radix2 64 = IZR (2 ^ 64)) by reflexivity.
    rewrite W. cbn [to_size]. fold z. destruct s.
    + repeat split; try (intros; exfalso; lra).
      * intros H. destruct (Z.eqb_spec z 0) as [E|E]; [|reflexivity]. exfalso. rewrite E in Hz. lra.
      * intros H. destruct (Z.eqb_spec z 0) as [E|E]; [reflexivity|]. exfalso. assert (1 <= z)%Z by lia. apply IZR_le in H0. lra.
    + repeat split; try (intros; exfalso; lra).
      * rewrite T64. intros H. destruct (Z.ltb_spec z (2 ^ 64)) as [E|E]; [|reflexivity]. exfalso. assert (z + 1 <= 2 ^ 64)%Z by lia. apply IZR_le in H0. rewrite plus_IZR in H0. lra.
      * rewrite T64. intros H. destruct (Z.ltb_spec z (2 ^ 64)) as [E|E]; [|exfalso; apply IZR_le in E; lra]. exists (Z.to_nat z). split; [reflexivity|]. rewrite INR_IZR_INZ, Z2Nat.id by exact Zp. lra.
Qed.
Print Assumptions c99_index.
Example c99_index_case : to_size (dopp half) = Ok 0%nat /\ to_size (dadd three half) = Ok 3%nat /\ to_size (dopp one) = UB.
Proof. vm_compute. repeat split. Qed.
(** At a node the line gives the value tabulated; at the upper end of the table the last interval is used. *)
Theorem c99_v1 : forall log ten gev emin emax least logs sigma div e n, length logs = S div -> length sigma = S div -> (1 <= div)%nat ->
  ~ less emax e -> ~ less e emin -> ~ (less e ten /\ less ten emin) ->
  to_size (ddiv (dsub (log (ddiv e gev)) (nth 0 logs S754_nan)) (dsub (nth 1 logs S754_nan) (nth 0 logs S754_nan))) = Ok n -> (n <= div)%nat ->
  exists i v, (S i <= div)%nat /\ (n = i \/ n = div /\ S i = div) /\ v1_total log ten gev emin emax least logs sigma div e = Ok v /\
    (log (ddiv e gev) = nth i logs S754_nan -> Forall moderate logs -> Forall moderate sigma -> value (nth i logs S754_nan) < value (nth (S i) logs S754_nan) -> value v = value (nth i sigma S754_nan)).
Proof.
  intros log ten gev emin emax least logs sigma div e n Ll Ls Hd H1 H2 H3 Hn Ln.
  assert (B : dlt e ten && dlt ten emin = false).
  { destruct (dlt e ten) eqn:E1; [|reflexivity]. destruct (dlt ten emin) eqn:E2; [|reflexivity]. exfalso. apply H3. split; now apply dlt_less. }
  apply dlt_false in H1. apply dlt_false in H2. unfold v1_total. rewrite H1, B, H2. change (at_place logs) with (fun i => nth i logs S754_nan). change (at_place sigma) with (fun i => nth i sigma S754_nan). cbv beta.
  set (t := ddiv e gev) in *. set (x := log t) in *.
  match goal with |- context [to_size ?q] => assert (Q : to_size q = Ok n) by exact Hn; rewrite Q end. cbn [obind].
  set (i := if Nat.eqb n div then (n - 1)%nat else n).
  assert (Hi : (S i <= div)%nat /\ (n = i \/ n = div /\ S i = div)) by (unfold i; destruct (Nat.eqb_spec n div); lia).
  destruct Hi as [Hi Hi']. exists i. assert (G : Nat.ltb (S i) (length logs) && Nat.ltb (S i) (length sigma) = true) by (apply andb_true_intro; split; apply Nat.ltb_lt; (apply (Nat.lt_le_trans _ (S div)); [lia|apply Nat.eq_le_incl; symmetry; assumption])).
  fold i. match goal with |- context [if ?g then Ok _ else UB] => assert (G' : g = true) by exact G; rewrite G' end. eexists. split; [exact Hi|]. split; [exact Hi'|]. split; [reflexivity|].
  intros Ex Ml Ms Lt. assert (Mx : moderate (nth i logs S754_nan)) by (apply moderate_nth; [exact Ml|apply (Nat.lt_le_trans _ (S div)); [lia|apply Nat.eq_le_incl; symmetry; exact Ll]]).
  assert (Mp : moderate (nth (S i) logs S754_nan)) by (apply moderate_nth; [exact Ml|apply (Nat.lt_le_trans _ (S div)); [lia|apply Nat.eq_le_incl; symmetry; exact Ll]]).
  assert (Ny : moderate (nth i sigma S754_nan)) by (apply moderate_nth; [exact Ms|apply (Nat.lt_le_trans _ (S div)); [lia|apply Nat.eq_le_incl; symmetry; exact Ls]]).
  assert (Np : moderate (nth (S i) sigma S754_nan)) by (apply moderate_nth; [exact Ms|apply (Nat.lt_le_trans _ (S div)); [lia|apply Nat.eq_le_incl; symmetry; exact Ls]]).
  assert (V : forall a b c d : double, moderate a -> moderate b -> moderate c -> moderate d -> value a < value b -> value (v1_inter a a b c d) = value c).
  { clear. intros a b c d (Da & Fa & Ba) (Db & Fb & Bb) (Dc & Fc & Bc) (Dd & Fd & Bd) L. unfold v1_inter. apply Rabs_le_inv in Ba. apply Rabs_le_inv in Bb. apply Rabs_le_inv in Bc. apply Rabs_le_inv in Bd. pose proof large_2 as L2.
    assert (Tn : forall z, Rabs z <= 2 * large -> Rabs (rnd z) < top) by (intros z Hz; apply rnd_top; now rewrite <- L2).
    assert (LP : 0 < large) by apply bpow_gt_0.
    destruct (sub_value d c Dd Dc Fd Fc (Tn (value d - value c) ltac:(apply Rabs_le; lra))) as (F1 & W1). destruct (sub_value a a Da Da Fa Fa (Tn (value a - value a) ltac:(apply Rabs_le; lra))) as (F2 & W2). destruct (sub_value b a Db Da Fb Fa (Tn (value b - value a) ltac:(apply Rabs_le; lra))) as (F3 & W3).
    rewrite Rminus_diag_eq, rnd_0 in W2 by reflexivity. pose proof (sub_double d c Dd Dc) as D1. pose proof (sub_double a a Da Da) as D2. pose proof (sub_double b a Db Da) as D3.
    assert (Z : Rabs (rnd 0) < top) by (rewrite rnd_0, Rabs_R0; apply bpow_gt_0).
    destruct (mul_value _ _ D1 D2 F1 F2 ltac:(rewrite W2, Rmult_0_r; exact Z)) as (F4 & W4). rewrite W2, Rmult_0_r, rnd_0 in W4. pose proof (mul_double _ _ D1 D2) as D4.
    assert (N3 : value (dsub b a) <> 0).
    { pose proof (rnd_sub_err b a Db Da) as E. rewrite <- W3, (Rabs_pos_eq (value b - value a)) in E by lra. pose proof u_range as U. apply Rabs_le_inv in E.
      assert (unit_roundoff * (value b - value a) <= / 1000000 * (value b - value a)) by (apply Rmult_le_compat_r; lra). lra. }
    destruct (div_value _ _ D4 D3 F4 F3 N3 ltac:(rewrite W4; unfold Rdiv; rewrite Rmult_0_l; exact Z)) as (F5 & W5). unfold Rdiv in W5. rewrite W4, Rmult_0_l, rnd_0 in W5. pose proof (div_double _ _ D4 D3) as D5.
    destruct (add_value _ _ Dc D5 Fc F5) as (F6 & W6); [rewrite W5, Rplus_0_r, (rnd_double c Dc); now apply value_top|]. rewrite W6, W5, Rplus_0_r. now apply rnd_double. }
  rewrite Ex. now apply V.
Qed.
Print Assumptions c99_v1.
Example c99_v1_case : v1_total (fun x => x) half one one three tenth [one; two; three] [half; four; two] 2 two = Ok four /\ v1_total (fun x => x) half one one three tenth [one; two; three] [half; four; two] 2 three = Ok two /\
  v1_total (fun x => x) half one one three tenth [one; two; three] [half; four; two] 2 (dadd one half) = Ok (dadd two (ddiv one four)).
Proof. vm_compute. repeat split. Qed.
