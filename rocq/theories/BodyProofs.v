(** Proofs about BodyModel. *)
From Coq Require Import List Arith Reals Lra Lia String Psatz.
From Verif Require Import Err AkimaModel AkimaProofs AkimaBicubicProps H5Model H5Proofs BodyModel.
Import ListNotations.
Local Open Scope R_scope.

(** ** Radial profiles *)
(** What a table stands for: the spline of its columns inside its range, and its end values outside. *)
Record profile (x y : list R) (f : R -> R) : Prop := {
  prof_nodes : forall i, (i < List.length x)%nat -> f (nth i x 0) = nth i y 0;
  prof_spline : forall s t, spline_of x y = Ok s -> nth 0 x 0 <= t <= nth (List.length x - 1) x 0 -> spline_eval s t = Ok (f t);
  prof_below : forall t, t <= nth 0 x 0 -> f t = nth 0 y 0;
  prof_above : forall t, nth (List.length x - 1) x 0 <= t -> f t = nth (List.length x - 1) y 0;
  prof_continuous : forall t, continuity_pt f t
}.

Definition clamp (lo hi t : R) : R := Rmax lo (Rmin hi t).
Lemma clamp_lipschitz lo hi s t : Rabs (clamp lo hi s - clamp lo hi t) <= Rabs (s - t).
Proof.
  unfold clamp, Rmax, Rmin. destruct (Rle_dec hi s), (Rle_dec hi t);
  repeat match goal with |- context [Rle_dec ?a ?b] => destruct (Rle_dec a b) end;
  unfold Rabs; repeat destruct Rcase_abs; lra.
Qed.
Lemma clamp_continuous lo hi t : continuity_pt (clamp lo hi) t.
Proof.
  intros eps Heps. exists eps. split; [exact Heps|]. intros s [_ Hs]. change (Rabs (s - t) < eps) in Hs. change (Rabs (clamp lo hi s - clamp lo hi t) < eps).
  eapply Rle_lt_trans; [apply clamp_lipschitz|exact Hs].
Qed.

Lemma spline_of_inv x y s : spline_of x y = Ok s ->
  List.length y = List.length x /\ (3 <= List.length x)%nat /\ increasing (col x) (List.length x) /\ s = the_spline (col x) (col y) (List.length x).
Proof.
  unfold spline_of. destruct (Nat.eqb_spec (List.length x) (List.length y)) as [E|E]; [|discriminate].
  intros H. destruct (akima_inv _ _ _ _ H) as (Hn & Hi & Hs). auto.
Qed.
Lemma first_final x : (3 <= List.length x)%nat -> increasing (col x) (List.length x) -> first x < final x.
Proof. intros Hn Hi. rewrite <- strictly_iff in Hi. apply (Hi 0%nat (List.length x - 1)%nat); lia. Qed.

Definition profile_fun (x y : list R) (t : R) : R := spline_fun (col x) (col y) (List.length x) (clamp (first x) (final x) t).
Lemma profile_ok x y s : spline_of x y = Ok s -> profile x y (profile_fun x y).
Proof.
  intros H. destruct (spline_of_inv _ _ _ H) as (Hl & Hn & Hi & ->). pose proof (first_final x Hn Hi) as Hff.
  assert (Hnode : forall i, (i < List.length x)%nat -> spline_fun (col x) (col y) (List.length x) (nth i x 0) = nth i y 0).
  { intros i Hlt. pose proof (spline_nodes (col x) (col y) _ i Hn Hi Hlt) as Hs. rewrite eval_total in Hs by assumption. injection Hs as Hs. exact Hs. }
  assert (Hin : forall t, first x <= t <= final x -> clamp (first x) (final x) t = t).
  { intros t Ht. unfold clamp, Rmax, Rmin. repeat destruct Rle_dec; lra. }
  assert (Hmono : forall i, (i < List.length x)%nat -> first x <= nth i x 0 <= final x).
  { intros i Hlt. assert (Hi' := Hi). rewrite <- strictly_iff in Hi'. split.
    - destruct i; [apply Rle_refl|]. left. apply (Hi' 0%nat (S i)); lia.
    - destruct (Nat.eq_dec i (List.length x - 1)) as [->|]; [apply Rle_refl|]. left. apply (Hi' i (List.length x - 1)%nat); lia. }
  split.
  - intros i Hlt. unfold profile_fun. rewrite Hin by auto. auto.
  - intros s t Hs Ht. destruct (spline_of_inv _ _ _ Hs) as (_ & _ & _ & ->). unfold profile_fun. rewrite Hin by exact Ht. now apply eval_total.
  - intros t Ht. unfold profile_fun. replace (clamp (first x) (final x) t) with (nth 0 x 0); [apply Hnode; lia|].
    fold (first x) in *. unfold clamp, Rmax, Rmin. repeat destruct Rle_dec; lra.
  - intros t Ht. unfold profile_fun. replace (clamp (first x) (final x) t) with (nth (List.length x - 1) x 0); [apply Hnode; lia|].
    fold (final x) in *. unfold clamp, Rmax, Rmin. repeat destruct Rle_dec; lra.
  - intros t. unfold profile_fun. apply (continuity_pt_comp (clamp (first x) (final x))); [apply clamp_continuous|now apply spline_continuous].
Qed.

Lemma make_table_inv x a b t : make_table x a b = Ok t ->
  t_x t = x /\ t_a t = a /\ t_b t = b /\ spline_of x a = Ok (s_a t) /\ spline_of x b = Ok (s_b t).
Proof.
  unfold make_table. destruct (spline_of x a) as [sa| |] eqn:E1; cbn [obind]; try discriminate.
  destruct (spline_of x b) as [sb| |] eqn:E2; cbn [obind]; try discriminate. intros H. injection H as <-. cbn. auto.
Qed.

Lemma lt_true x y : x < y -> lt x y = true.
Proof. intros. unfold lt. destruct Rlt_dec; [reflexivity|contradiction]. Qed.
Lemma lt_false x y : y <= x -> lt x y = false.
Proof. intros. unfold lt. destruct Rlt_dec; [lra|reflexivity]. Qed.
Lemma lt_cases x y : (lt x y = true /\ x < y) \/ (lt x y = false /\ y <= x).
Proof. unfold lt. destruct Rlt_dec; [left|right]; split; trivial. lra. Qed.

(** The value looked up with clamping is the profile's. *)
Lemma clamped x c s f v : spline_of x c = Ok s -> profile x c f ->
  (if lt v (first x) then Ok (first c) else if lt (final x) v then Ok (final c) else spline_eval s v) = Ok (f v).
Proof.
  intros Hs Hp. destruct (spline_of_inv _ _ _ Hs) as (Hl & _).
  destruct (lt_cases v (first x)) as [[-> H]|[-> H]]; [rewrite (prof_below _ _ _ Hp) by (apply Rlt_le, H); reflexivity|].
  destruct (lt_cases (final x) v) as [[-> H']|[-> H']].
  - rewrite (prof_above _ _ _ Hp) by (apply Rlt_le, H'). unfold final. now rewrite Hl.
  - apply (prof_spline _ _ _ Hp); [exact Hs|]. split; [exact H|exact H'].
Qed.

(** ** Earth *)
Section K.
Variables km cm : R.
Hypothesis km_pos : 0 < km.

(** Distance to the centre, in units of the Earth's radius, of the point at [x] along a chord of length [base]. *)
Definition chord_fraction (base x : R) : R := sqrt ((x / km - base / km / 2) ^ 2 + (earth_km ^ 2 - (base / km / 2) ^ 2)) / earth_km.
Lemma chord_sq base x : sqr earth_km + sqr (x / km) - base / km * (x / km) = (x / km - base / km / 2) ^ 2 + (earth_km ^ 2 - (base / km / 2) ^ 2).
Proof. unfold sqr. field. lra. Qed.
Lemma earth_r_ok base x : 0 <= base <= 2 * earth_km * km -> earth_r km base x = Ok (chord_fraction base x * earth_km).
Proof.
  intros Hb. unfold earth_r, chord_fraction. cbv zeta. rewrite chord_sq.
  set (q := (x / km - base / km / 2) ^ 2 + (earth_km ^ 2 - (base / km / 2) ^ 2)).
  assert (Hh : 0 <= base / km / 2 <= earth_km).
  { split; [apply Rmult_le_pos; [apply Rmult_le_pos; [lra|left; now apply Rinv_0_lt_compat]|lra]|].
    apply Rmult_le_reg_r with (2 * km); [lra|]. replace (base / km / 2 * (2 * km)) with base by (field; lra). lra. }
  assert (Hq : 0 <= q). { unfold q. pose proof (pow2_ge_0 (x / km - base / km / 2)). nra. }
  assert (He : earth_km <> 0) by (unfold earth_km; lra).
  destruct (lt_cases 0 q) as [[-> H]|[-> H]]; [f_equal; field; exact He|]. assert (Eq : q = 0) by lra. rewrite Eq.
  rewrite Rabs_R0, lt_true by (apply Rinv_0_lt_compat; apply pow_lt; lra). rewrite sqrt_0. f_equal. field. exact He.
Qed.
Lemma chord_bounds base x : 0 <= base <= 2 * earth_km * km -> 0 <= x <= base -> 0 <= chord_fraction base x <= 1.
Proof.
  intros Hb Hx. unfold chord_fraction. assert (He : 0 < earth_km) by (unfold earth_km; lra).
  rewrite <- chord_sq. unfold sqr. assert (Hi : 0 < / km) by now apply Rinv_0_lt_compat.
  split; [apply Rmult_le_pos; [apply sqrt_pos|left; now apply Rinv_0_lt_compat]|].
  apply Rmult_le_reg_r with earth_km; [exact He|]. unfold Rdiv at 1. rewrite Rmult_assoc, Rinv_l, Rmult_1_r, Rmult_1_l by lra.
  apply Rle_trans with (sqrt (earth_km * earth_km)); [|rewrite sqrt_square; lra]. apply sqrt_le_1_alt.
  assert (x / km * (x / km) <= base / km * (x / km)); [|lra]. apply Rmult_le_compat_r; [apply Rmult_le_pos; lra|]. apply Rmult_le_compat_r; lra.
Qed.
Lemma earth_value_ok t c s f base x : spline_of (t_x t) c = Ok s -> profile (t_x t) c f -> 0 <= base <= 2 * earth_km * km ->
  earth_value km t c s base x = Ok (f (chord_fraction base x)).
Proof.
  intros Hs Hp Hb. unfold earth_value. rewrite earth_r_ok by exact Hb. cbn [obind].
  replace (chord_fraction base x * earth_km / earth_km) with (chord_fraction base x) by (field; unfold earth_km; lra). now apply clamped.
Qed.
Lemma earth_r_symmetric base x : earth_r km base (base - x) = earth_r km base x.
Proof. unfold earth_r. cbv zeta. rewrite !chord_sq. replace (((base - x) / km - base / km / 2) ^ 2) with ((x / km - base / km / 2) ^ 2) by (field; lra). reflexivity. Qed.

(** ** Earth with atmosphere. In units of km: detector at distance [r] from the centre, [h] of air. *)
Definition S_len (c r h : R) : R := sqrt ((r + h) * (r + h) - r * r * (1 - c * c)).
Lemma S_sq c r h : -1 <= c <= 1 -> 0 < r -> 0 <= h -> S_len c r h * S_len c r h = (r + h) * (r + h) - r * r * (1 - c * c) /\ 0 <= S_len c r h /\ - S_len c r h <= r * c <= S_len c r h.
Proof.
  intros Hc Hr Hh. assert (H0 : 0 <= (r + h) * (r + h) - r * r * (1 - c * c)).
  { replace ((r + h) * (r + h) - r * r * (1 - c * c)) with ((h * (2 * r + h)) + (r * c) * (r * c)) by ring.
    pose proof (Rle_0_sqr (r * c)) as Hq. unfold Rsqr in Hq. assert (0 <= h * (2 * r + h)) by (apply Rmult_le_pos; lra). lra. }
  assert (Hs : S_len c r h * S_len c r h = (r + h) * (r + h) - r * r * (1 - c * c)) by (unfold S_len; now apply sqrt_sqrt).
  assert (Hp : 0 <= S_len c r h) by apply sqrt_pos. repeat split; trivial.
  - assert (0 <= h * (2 * r + h)) by (apply Rmult_le_pos; lra). destruct (Rle_lt_dec (- S_len c r h) (r * c)) as [|Hlt]; [assumption|exfalso].
    assert (S_len c r h * S_len c r h < (r * c) * (r * c)) by nra. nra.
  - assert (0 <= h * (2 * r + h)) by (apply Rmult_le_pos; lra). destruct (Rle_lt_dec (r * c) (S_len c r h)) as [|Hlt]; [assumption|exfalso].
    assert (S_len c r h * S_len c r h < (r * c) * (r * c)) by nra. nra.
Qed.
Lemma atm_length_km c r h : -1 <= c <= 1 -> 0 < r -> 0 <= h -> atm_length c (r * km) (h * km) = (S_len c r h - r * c) * km.
Proof.
  intros Hc Hr Hh. unfold atm_length, sqr.
  replace ((r * km + h * km) * (r * km + h * km) - r * km * (r * km) * (1 - c * c)) with ((km * km) * ((r + h) * (r + h) - r * r * (1 - c * c))) by ring.
  rewrite sqrt_mult_alt by nra. rewrite sqrt_square by lra. unfold S_len. ring.
Qed.
(** The distance to the centre of the point at [x] along the path from the top of the atmosphere, the detector being at (0,r) and the
    direction of arrival (sqrt(1-c^2), c). *)
Definition path_radius (c r h x : R) : R :=
  let d := S_len c r h - r * c - x / km in sqrt ((d * sqrt (1 - c * c)) ^ 2 + (r + d * c) ^ 2).
Lemma path_sq c r h x : -1 <= c <= 1 -> 0 < r -> 0 <= h ->
  (let d := S_len c r h - r * c - x / km in (d * sqrt (1 - c * c)) ^ 2 + (r + d * c) ^ 2) = (S_len c r h - x / km) ^ 2 + r * r * (1 - c * c).
Proof.
  intros Hc Hr Hh. cbv zeta. rewrite Rpow_mult_distr. rewrite <- (Rsqr_pow2 (sqrt (1 - c * c))), Rsqr_sqrt by nra. ring.
Qed.
Lemma path_radius_eq c r h x : -1 <= c <= 1 -> 0 < r -> 0 <= h -> path_radius c r h x = sqrt ((S_len c r h - x / km) ^ 2 + r * r * (1 - c * c)).
Proof. intros Hc Hr Hh. unfold path_radius. cbv zeta. f_equal. exact (path_sq c r h x Hc Hr Hh). Qed.
Lemma atm_r_path c r h x : -1 <= c <= 1 -> 0 < r -> 0 <= h -> atm_r km r h c (atm_length c (r * km) (h * km)) x = path_radius c r h x.
Proof.
  intros Hc Hr Hh. unfold atm_r, path_radius. cbv zeta. rewrite atm_length_km by assumption. unfold sqr. fold (S_len c r h).
  destruct (S_sq c r h Hc Hr Hh) as (Hs & _ & _). pose proof (path_sq c r h x Hc Hr Hh) as Hp. cbv zeta in Hp.
  replace ((r + h) * (r + h) + x / km * (x / km) - ((S_len c r h - r * c) * km / km + (S_len c r h + r * c)) * (x / km))
    with ((S_len c r h - x / km) ^ 2 + r * r * (1 - c * c)).
  - rewrite Hp. destruct (lt_cases 0 ((S_len c r h - x / km) ^ 2 + r * r * (1 - c * c))) as [[-> H]|[-> H]]; [reflexivity|].
    symmetry. apply sqrt_neg_0. exact H.
  - replace ((S_len c r h - r * c) * km / km) with (S_len c r h - r * c) by (field; lra). nra.
Qed.
Lemma path_start c r h : -1 <= c <= 1 -> 0 < r -> 0 <= h -> path_radius c r h 0 = r + h.
Proof.
  intros Hc Hr Hh. rewrite path_radius_eq by assumption. destruct (S_sq c r h Hc Hr Hh) as (Hs & _).
  replace ((S_len c r h - 0 / km) ^ 2 + r * r * (1 - c * c)) with ((r + h) * (r + h)).
  - apply sqrt_square. lra.
  - unfold Rdiv. rewrite Rmult_0_l, Rminus_0_r. nra.
Qed.
Lemma path_end c r h : -1 <= c <= 1 -> 0 < r -> 0 <= h -> path_radius c r h (atm_length c (r * km) (h * km)) = r.
Proof.
  intros Hc Hr Hh. unfold path_radius. rewrite atm_length_km by assumption. cbv zeta.
  replace (S_len c r h - r * c - (S_len c r h - r * c) * km / km) with 0 by (field; lra).
  rewrite !Rmult_0_l, Rplus_0_r. replace (0 ^ 2 + r ^ 2) with (r * r) by ring. apply sqrt_square. lra.
Qed.
Lemma path_inside c r h x : -1 <= c <= 1 -> 0 < r -> 0 <= h -> 0 <= x <= atm_length c (r * km) (h * km) -> 0 <= path_radius c r h x <= r + h.
Proof.
  intros Hc Hr Hh Hx. split; [apply sqrt_pos|]. rewrite atm_length_km in Hx by assumption. rewrite path_radius_eq by assumption.
  destruct (S_sq c r h Hc Hr Hh) as (Hs & H0 & Hrc).
  assert (Hxk : 0 <= x / km <= S_len c r h - r * c).
  { assert (0 < / km) by now apply Rinv_0_lt_compat. split; [apply Rmult_le_pos; lra|].
    apply Rmult_le_reg_r with km; [lra|]. replace (x / km * km) with x by (field; lra). lra. }
  apply Rle_trans with (sqrt ((r + h) * (r + h))); [|rewrite sqrt_square; lra]. apply sqrt_le_1_alt.
  set (X := x / km) in *. assert ((S_len c r h - X) ^ 2 <= S_len c r h * S_len c r h).
  { assert (0 <= X * (2 * S_len c r h - X)) by (apply Rmult_le_pos; lra). nra. }
  nra.
Qed.
Lemma atm_length_nonneg c r h : -1 <= c <= 1 -> 0 < r -> 0 <= h -> 0 <= atm_length c (r * km) (h * km).
Proof. intros Hc Hr Hh. rewrite atm_length_km by assumption. destruct (S_sq c r h Hc Hr Hh) as (_ & _ & Hrc). apply Rmult_le_pos; lra. Qed.

(** ** Serialization *)
Lemma get_arr_ok (g : sgroup) n l : lookup n g = Some (SArr l) -> get_arr g n (List.length l) = Ok l.
Proof. intros H. unfold get_arr. rewrite H, Nat.leb_refl, Nat.sub_diag. cbn [repeat]. now rewrite app_nil_r. Qed.
Lemma spline_len x y s : spline_of x y = Ok s -> List.length y = List.length x.
Proof. intros H. now destruct (spline_of_inv _ _ _ H). Qed.
Lemma get_table_ok g nx na nb mk x a b t : make_table x a b = Ok t ->
  lookup "arraysize" g = Some (SUInt (List.length x)) -> lookup nx g = Some (SArr x) -> lookup na g = Some (SArr a) -> lookup nb g = Some (SArr b) ->
  get_table g nx na nb mk = mk x a b.
Proof.
  intros Ht H1 H2 H3 H4. destruct (make_table_inv _ _ _ _ Ht) as (_ & _ & _ & Sa & Sb). unfold get_table, get_uint. rewrite H1. cbn [obind].
  rewrite (get_arr_ok _ _ _ H2). cbn [obind]. rewrite <- (spline_len _ _ _ Sa) at 1. rewrite (get_arr_ok _ _ _ H3). cbn [obind].
  rewrite <- (spline_len _ _ _ Sb). rewrite (get_arr_ok _ _ _ H4). reflexivity.
Qed.
End K.

(** ** Registry *)
Section Reg.
Context {F : Type}.
Implicit Types (r : @registry F).
Definition known r (n : string) : option F := match r with None => None | Some m => lookup n m end.
Lemma known_register r n f k : known (register r n f) k = match known r k with Some g => Some g | None => if String.eqb k n then Some f else None end.
Proof.
  destruct r as [m|]; cbn [register known].
  - destruct (lookup n m) eqn:E; [destruct (lookup k m) eqn:E2; [reflexivity|]; destruct (String.eqb_spec k n); [subst; congruence|reflexivity]|].
    rewrite lookup_cons. destruct (String.eqb_spec k n) as [->|]; [now rewrite E|]. destruct (lookup k m); reflexivity.
  - change (lookup n []) with (@None F). cbn iota. rewrite lookup_cons. reflexivity.
Qed.
Lemma known_all l : forall r k, known (register_all r l) k = match known r k with Some g => Some g | None => lookup k l end.
Proof.
  unfold register_all. induction l as [|[n f] l IH]; intros r k; cbn [fold_left fst snd]; [destruct (known r k); reflexivity|].
  rewrite IH, known_register, lookup_cons. destruct (known r k); [reflexivity|]. now destruct (String.eqb k n).
Qed.
Lemma register_all_some l : forall r, r <> None \/ l <> [] -> register_all r l <> None.
Proof.
  unfold register_all. induction l as [|[n f] l IH]; intros r H; cbn [fold_left]; [destruct H; congruence|]. apply IH. left. discriminate.
Qed.
Lemma resolve_known r k : r <> None -> resolve r k = match known r k with Some f => Ok f | None => Throw RuntimeError end.
Proof. destruct r; [reflexivity|congruence]. Qed.
Lemma lookup_app {V} n (a b : list (string * V)) : lookup n (a ++ b) = match lookup n a with Some v => Some v | None => lookup n b end.
Proof. induction a as [|[m v] a IH]; [reflexivity|]. cbn [app]. rewrite !lookup_cons. destruct (String.eqb n m); [reflexivity|exact IH]. Qed.
Lemma lookup_absent {V} n (l : list (string * V)) : ~ In n (map fst l) -> lookup n l = None.
Proof.
  induction l as [|[m v] l IH]; intros H; [reflexivity|]. rewrite lookup_cons. destruct (String.eqb_spec n m) as [->|]; [exfalso; apply H; now left|].
  apply IH. intros Hin. apply H. now right.
Qed.
End Reg.
