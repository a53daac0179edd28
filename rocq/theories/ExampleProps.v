(** C82: media and cross sections of the examples (ExampleModel.v). *)
From Coq Require Import List Arith ZArith Reals Lra Lia String.
From Verif Require Import Err AkimaModel PiecewiseProofs AkimaProofs AkimaBicubicProps AkimaAffineProps H5Model BodyModel BodyProofs BodyProps IntegralProofs ExampleModel.
Import ListNotations.
Local Open Scope R_scope.

(** ** EarthMod: helpers *)
Lemma weighted_length f1 f2 f3 rows : forall i, List.length (weighted f1 f2 f3 i rows) = List.length rows.
Proof. induction rows as [|r rows IH]; intros i; cbn; [reflexivity|]. now rewrite IH. Qed.
Lemma weighted_nth f1 f2 f3 rows : forall i k, (k < List.length rows)%nat ->
  nth k (weighted f1 f2 f3 i rows) 0 = layer f1 f2 f3 (i + k) * nth k (map r_rho rows) 0.
Proof.
  induction rows as [|r rows IH]; intros i k H; cbn in H; [lia|]. destruct k as [|k]; cbn [weighted map nth].
  - now rewrite Nat.add_0_r.
  - rewrite IH by lia. now rewrite Nat.add_succ_r.
Qed.

Lemma make_mod_inv prem rows f1 f2 f3 e : make_mod prem rows f1 f2 f3 = Ok e ->
  exists T, e = EarthMod (EarthAtm T 6371 20) (List.length prem) /\ rows <> [] /\
    make_table (map r_x rows) (weighted f1 f2 f3 0 rows) (map r_ye rows) = Ok T.
Proof.
  unfold make_mod. destruct (earthatm_of prem); cbn [obind]; try discriminate.
  unfold mod_table. destruct rows as [|r rows]; [discriminate|].
  destruct (make_table _ _ _) as [T| |] eqn:E; cbn [obind]; try discriminate. intros H. injection H as <-. exists T. split; [reflexivity|]. split; [discriminate|reflexivity].
Qed.
Lemma earthatm_inv rows s : earthatm_of rows = Ok s -> exists T, s = EarthAtm T 6371 22 /\ make_table (map r_x rows) (map r_rho rows) (map r_ye rows) = Ok T.
Proof.
  unfold earthatm_of, make_earthatm. destruct rows as [|r rows]; [discriminate|].
  destruct (make_table _ _ _) as [T| |] eqn:E; cbn [obind]; try discriminate. intros H. injection H as <-. now exists T.
Qed.
Lemma mono_nth x i : (3 <= List.length x)%nat -> increasing (col x) (List.length x) -> (i < List.length x)%nat -> first x <= nth i x 0 <= final x.
Proof.
  intros Hn Hi Hlt. rewrite <- strictly_iff in Hi. split.
  - destruct i; [apply Rle_refl|]. left. apply (Hi 0%nat (S i)); lia.
  - destruct (Nat.eq_dec i (List.length x - 1)) as [->|]; [apply Rle_refl|]. left. apply (Hi i (List.length x - 1)%nat); lia.
Qed.

Lemma nth_firstn_lt (x : list R) : forall n k, (k < n)%nat -> nth k (firstn n x) 0 = nth k x 0.
Proof.
  induction x as [|a x IH]; intros n k H; [now rewrite firstn_nil|]. destruct n as [|n]; [lia|]. destruct k as [|k]; [reflexivity|]. cbn [firstn nth]. apply IH. lia.
Qed.

(** ** Specification: the radius in km of the point of a trajectory, and where it is in the table *)
Definition point (km : R) (t : track) : R := match t with EarthAtmTrack x _ _ c _ _ L => atm_r km 6371 20 c L x | _ => 0 end.
Definition in_air (t : track) : Prop := match t with EarthAtmTrack _ _ _ _ _ _ _ => True | _ => False end.

Lemma nodes : forall km cm prem rows f1 f2 f3 e t i r, make_mod prem rows f1 f2 f3 = Ok e -> in_air t -> nth_error rows i = Some r ->
  point km t = r_x r * 6391 -> point km t <= 6371 -> density km cm (em_body e) t = Ok (layer f1 f2 f3 i * r_rho r).
Proof.
  intros km cm prem rows f1 f2 f3 e t i r H Ht Hr Hp Hs. destruct (make_mod_inv _ _ _ _ _ _ H) as (T & -> & _ & ET).
  destruct (make_table_inv _ _ _ _ ET) as (Ex & Ea & _ & Sa & _). destruct (spline_of_inv _ _ _ Sa) as (Hl & Hn & Hi & Es).
  destruct t as [| | |p a b c u v L]; try contradiction. cbn [em_body density point] in *.
  assert (Li : (i < List.length rows)%nat) by (apply nth_error_Some; congruence).
  assert (Xi : nth i (map r_x rows) 0 = r_x r) by (erewrite nth_error_nth; [reflexivity|]; now apply map_nth_error).
  assert (Ri : nth i (map r_rho rows) 0 = r_rho r) by (erewrite nth_error_nth; [reflexivity|]; now apply map_nth_error).
  pose proof (mono_nth (map r_x rows) i Hn Hi ltac:(rewrite map_length; exact Li)) as [M1 M2]. rewrite Xi in M1, M2.
  unfold atm_value. set (q := atm_r km 6371 20 c L p) in *. replace (6371 + 20) with 6391 by lra.
  replace (q / 6391) with (r_x r) by (rewrite Hp; field).
  rewrite Ex, (lt_false _ _ M1), (lt_false _ _ M2). cbn [andb]. rewrite (lt_false 6371 q Hs).
  rewrite Es, <- Xi. pose proof (spline_nodes (col (map r_x rows)) (col (weighted f1 f2 f3 0 rows)) _ i Hn Hi ltac:(rewrite map_length; exact Li)) as N.
  unfold col in N at 3. rewrite N. f_equal. unfold col. rewrite weighted_nth by exact Li. now rewrite Nat.add_0_l, Ri.
Qed.
Lemma nodes_ye : forall km cm prem rows f1 f2 f3 e t i r, make_mod prem rows f1 f2 f3 = Ok e -> in_air t -> nth_error rows i = Some r ->
  point km t = r_x r * 6391 -> point km t <= 6371 -> ye km cm (em_body e) t = Ok (r_ye r).
Proof.
  intros km cm prem rows f1 f2 f3 e t i r H Ht Hr Hp Hs. destruct (make_mod_inv _ _ _ _ _ _ H) as (T & -> & _ & ET).
  destruct (make_table_inv _ _ _ _ ET) as (Ex & _ & Eb & _ & Sb). destruct (spline_of_inv _ _ _ Sb) as (Hl & Hn & Hi & Es).
  destruct t as [| | |p a b c u v L]; try contradiction. cbn [em_body ye point] in *.
  assert (Li : (i < List.length rows)%nat) by (apply nth_error_Some; congruence).
  assert (Xi : nth i (map r_x rows) 0 = r_x r) by (erewrite nth_error_nth; [reflexivity|]; now apply map_nth_error).
  assert (Ri : nth i (map r_ye rows) 0 = r_ye r) by (erewrite nth_error_nth; [reflexivity|]; now apply map_nth_error).
  pose proof (mono_nth (map r_x rows) i Hn Hi ltac:(rewrite map_length; exact Li)) as [M1 M2]. rewrite Xi in M1, M2.
  unfold atm_value. set (q := atm_r km 6371 20 c L p) in *. replace (6371 + 20) with 6391 by lra.
  replace (q / 6391) with (r_x r) by (rewrite Hp; field).
  rewrite Ex, (lt_false _ _ M1), (lt_false _ _ M2). cbn [andb]. rewrite (lt_false 6371 q Hs).
  rewrite Es, <- Xi. pose proof (spline_nodes (col (map r_x rows)) (col (map r_ye rows)) _ i Hn Hi ltac:(rewrite map_length; exact Li)) as N.
  unfold col in N at 3. rewrite N. f_equal. unfold col. exact Ri.
Qed.
(** At a row (radius, density, electron fraction) of the table the density is that of the file times the factor of the row's layer
    and the electron fraction that of the file. *)
Theorem c82_nodes : forall km cm prem rows f1 f2 f3 e t i x rho y, make_mod prem rows f1 f2 f3 = Ok e -> in_air t -> nth_error rows i = Some (x, rho, y) ->
  point km t = x * 6391 -> point km t <= 6371 -> density km cm (em_body e) t = Ok (layer f1 f2 f3 i * rho) /\ ye km cm (em_body e) t = Ok y.
Proof.
  intros km cm prem rows f1 f2 f3 e t i x rho y H1 H2 H3 H4 H5. split.
  - exact (nodes km cm prem rows f1 f2 f3 e t i (x, rho, y) H1 H2 H3 H4 H5).
  - exact (nodes_ye km cm prem rows f1 f2 f3 e t i (x, rho, y) H1 H2 H3 H4 H5).
Qed.

(** Where the six rows around a point are of one layer the density is the layer's factor times that of the standard medium with the same height. *)
Theorem c82_inside : forall km cm prem rows f1 f2 f3 f e s t j v, make_mod prem rows f1 f2 f3 = Ok e -> earthatm_of rows = Ok s -> in_air t -> (S j < List.length rows)%nat ->
  (forall k, (k < List.length rows)%nat -> (j <= k + 2)%nat -> (k <= j + 3)%nat -> layer f1 f2 f3 k = f) ->
  nth j (map r_x rows) 0 <= point km t / 6391 <= nth (S j) (map r_x rows) 0 -> point km t <= 6371 ->
  density km cm (set_height s 20) t = Ok v -> density km cm (em_body e) t = Ok (f * v).
Proof.
  intros km cm prem rows f1 f2 f3 f e s t j v H Hs Ht Hj Hf Hp Hr Hv. destruct (make_mod_inv _ _ _ _ _ _ H) as (T & -> & _ & ET).
  destruct (earthatm_inv _ _ Hs) as (S0 & -> & ES).
  destruct (make_table_inv _ _ _ _ ET) as (Ex & Ea & _ & Sa & _). destruct (make_table_inv _ _ _ _ ES) as (Fx & Fa & _ & Ga & _).
  destruct (spline_of_inv _ _ _ Sa) as (Hl & Hn & Hi & Es). destruct (spline_of_inv _ _ _ Ga) as (Hl' & _ & _ & Es').
  destruct t as [| | |p a b c u w L]; try contradiction. cbn [em_body density point set_height] in *.
  set (q := atm_r km 6371 20 c L p) in *. unfold atm_value in *. replace (6371 + 20) with 6391 in * by lra.
  pose proof (mono_nth (map r_x rows) j Hn Hi ltac:(rewrite map_length; lia)) as [M1 _].
  pose proof (mono_nth (map r_x rows) (S j) Hn Hi ltac:(rewrite map_length; lia)) as [_ M2].
  rewrite Ex, Fx in *. rewrite lt_false by lra. rewrite (lt_false (final _)) by lra. rewrite lt_false in Hv by lra. rewrite (lt_false (final _)) in Hv by lra.
  cbn [andb] in *. rewrite (lt_false 6371 q Hr) in *.
  unfold spline_of in Sa, Ga. rewrite !map_length, weighted_length in Sa. rewrite !map_length in Ga. rewrite Nat.eqb_refl in Sa, Ga.
  pose proof (c16_local_affine _ _ _ _ _ _ j (q / 6391) 0 0 f v Ga Sa ltac:(lia)) as A. rewrite A; trivial.
  - f_equal. ring.
  - intros k K1 K2 K3. unfold col at 1. rewrite weighted_nth by lia. rewrite Nat.add_0_l, (Hf k) by lia. unfold col. ring.
Qed.

(** One factor for all layers scales the whole Earth, and never the air (files of up to 201 rows, as the PREM). *)
Theorem c82_uniform : forall km cm prem rows f e s t v, make_mod prem rows f f f = Ok e -> earthatm_of rows = Ok s -> in_air t -> (List.length rows <= 201)%nat ->
  density km cm (set_height s 20) t = Ok v ->
  (point km t <= 6371 -> density km cm (em_body e) t = Ok (f * v)) /\
  (6371 < point km t -> nth 0 (map r_x rows) 0 <= point km t / 6391 -> density km cm (em_body e) t = Ok v).
Proof.
  intros km cm prem rows f e s t v H Hs Ht Hn Hv. destruct (make_mod_inv _ _ _ _ _ _ H) as (T & -> & _ & ET).
  destruct (earthatm_inv _ _ Hs) as (S0 & -> & ES).
  destruct (make_table_inv _ _ _ _ ET) as (Ex & Ea & _ & Sa & _). destruct (make_table_inv _ _ _ _ ES) as (Fx & Fa & _ & Ga & _).
  destruct (spline_of_inv _ _ _ Sa) as (Hl & Hn3 & Hi & Es). rewrite map_length in Hn3.
  assert (W : forall k, (k < List.length rows)%nat -> nth k (weighted f f f 0 rows) 0 = f * nth k (map r_rho rows) 0).
  { intros k Hk. rewrite weighted_nth by exact Hk. f_equal. unfold layer. destruct (Nat.ltb (0 + k) 39), (Nat.ltb (0 + k) 110); trivial.
    all: destruct (Nat.ltb_spec (0 + k) 201); trivial; lia. }
  destruct t as [| | |p a b c u w L]; try contradiction. cbn [em_body density point set_height] in *.
  set (q := atm_r km 6371 20 c L p) in *. unfold atm_value in *. replace (6371 + 20) with 6391 in * by lra. rewrite Ex, Fx, Ea, Fa in *.
  split.
  - intros Hq. destruct (lt_cases (q / 6391) (first (map r_x rows))) as [[E1 _]|[E1 _]]; rewrite E1 in *.
    { injection Hv as <-. f_equal. unfold first. apply W. lia. }
    destruct (lt (final (map r_x rows)) (q / 6391) && lt q 6371)%bool.
    { injection Hv as <-. f_equal. unfold final. rewrite weighted_length, map_length. apply W. lia. }
    rewrite (lt_false 6371 q Hq) in *.
    unfold spline_of in Sa, Ga. rewrite !map_length, weighted_length in Sa. rewrite !map_length in Ga. rewrite Nat.eqb_refl in Sa, Ga.
    destruct (c16_affine _ _ (col (weighted f f f 0 rows)) _ _ 0 0 f (q / 6391) v Ga) as (s' & A & B); trivial.
    { intros i Hi'. unfold col at 1. rewrite W by lia. unfold col. ring. }
    rewrite Sa in A. injection A as <-. rewrite B. f_equal. ring.
  - intros Hq H0. fold (first (map r_x rows)) in *. rewrite (lt_false _ _ H0) in *.
    rewrite (lt_false q 6371) in * by lra. rewrite Bool.andb_false_r in *. rewrite (lt_true 6371 q Hq) in *. exact Hv.
Qed.

(** Composition does not depend on the factors, nor do the trajectories. *)
Theorem c82_composition : forall km cm prem rows f1 f2 f3 g1 g2 g3 e e' t phi, make_mod prem rows f1 f2 f3 = Ok e -> make_mod prem rows g1 g2 g3 = Ok e' ->
  ye km cm (em_body e) t = ye km cm (em_body e') t /\ make_track km (em_body e) phi = make_track km (em_body e') phi /\
  exists s, earthatm_of rows = Ok s /\ ye km cm (em_body e) t = ye km cm (set_height s 20) t.
Proof.
  intros km cm prem rows f1 f2 f3 g1 g2 g3 e e' t phi H H'. destruct (make_mod_inv _ _ _ _ _ _ H) as (T & -> & NE & ET). destruct (make_mod_inv _ _ _ _ _ _ H') as (T' & -> & _ & ET').
  destruct (make_table_inv _ _ _ _ ET) as (Ex & _ & Eb & Sa & Sb). destruct (make_table_inv _ _ _ _ ET') as (Ex' & _ & Eb' & _ & Sb').
  assert (SE : s_b T = s_b T') by congruence.
  assert (exists s, make_table (map r_x rows) (map r_rho rows) (map r_ye rows) = Ok s) as [S0 ES].
  { unfold make_table. destruct (spline_of_inv _ _ _ Sa) as (Hl & Hn & Hi & _). unfold spline_of at 1. rewrite !map_length, Nat.eqb_refl. rewrite map_length in Hn, Hi.
    rewrite akima_ok by assumption. cbn [obind]. rewrite Sb. cbn [obind]. eauto. }
  destruct (make_table_inv _ _ _ _ ES) as (Ex0 & _ & Eb0 & _ & Sb0). assert (SE0 : s_b T = s_b S0) by congruence.
  split; [|split].
  - destruct t; try reflexivity. cbn [em_body ye]. unfold atm_value. rewrite Ex, Ex', Eb, Eb', SE. reflexivity.
  - reflexivity.
  - exists (EarthAtm S0 6371 22). split; [unfold earthatm_of, make_earthatm; destruct rows; [congruence|]; now rewrite ES|].
    destruct t; try reflexivity. cbn [em_body ye set_height]. unfold atm_value. rewrite Ex, Ex0, Eb, Eb0, SE0. reflexivity.
Qed.

(** Factors do not add up: after any calls of Mod the medium is the one constructed with the last factors. *)
Fixpoint mod_calls (prem : list row) (l : list (R * R * R)) (e : earthmod) : outcome earthmod :=
  match l with [] => Ok e | (f1, f2, f3) :: l' => obind (mod_call prem f1 f2 f3 e) (mod_calls prem l') end.
Theorem c82_mod_last : forall prem l f1 f2 f3 g e e', make_mod_default prem f1 f2 f3 = Ok e -> mod_calls prem (l ++ [g]) e = Ok e' ->
  make_mod_default prem (fst (fst g)) (snd (fst g)) (snd g) = Ok e'.
Proof.
  intros prem l f1 f2 f3 g e e' H. assert (K : exists T, em_body e = EarthAtm T 6371 20 /\ em_size e = List.length prem).
  { destruct (make_mod_inv _ _ _ _ _ _ H) as (T & -> & _). now exists T. }
  assert (B : exists s, earthatm_of prem = Ok s).
  { unfold make_mod_default, make_mod in H. destruct (earthatm_of prem) as [s| |]; [eauto|discriminate|discriminate]. }
  clear H f1 f2 f3. revert e K. induction l as [|[[a1 a2] a3] l IH]; intros e K; cbn [app mod_calls].
  - destruct g as [[g1 g2] g3]. cbn [fst snd]. destruct K as (T & K1 & K2). unfold mod_call. rewrite K1, K2.
    unfold make_mod_default, make_mod. destruct B as [s ->]. cbn [obind]. destruct (mod_table prem g1 g2 g3); cbn [obind mod_calls]; congruence.
  - destruct (mod_call prem a1 a2 a3 e) as [e1| |] eqn:E1; cbn [obind]; try discriminate. intros H. apply (IH e1); [|exact H].
    destruct K as (T & K1 & K2). unfold mod_call in E1. rewrite K1 in E1. destruct (mod_table prem a1 a2 a3) as [T1| |]; cbn [obind] in E1; try discriminate.
    injection E1 as <-. exists T1. now split.
Qed.

(** An EarthMod made from another file becomes the PREM with Mod. *)
Theorem c82_mod_file_refuted : forall prem rows f1 f2 f3 g1 g2 g3 e e', make_mod prem rows f1 f2 f3 = Ok e -> mod_call prem g1 g2 g3 e = Ok e' ->
  make_mod_default prem g1 g2 g3 = Ok e' /\ (map r_x rows <> map r_x prem -> make_mod prem rows g1 g2 g3 <> Ok e').
Proof.
  intros prem rows f1 f2 f3 g1 g2 g3 e e' H H'. assert (B : exists s, earthatm_of prem = Ok s).
  { unfold make_mod in H. destruct (earthatm_of prem) as [s| |]; [eauto|discriminate|discriminate]. }
  destruct (make_mod_inv _ _ _ _ _ _ H) as (T & -> & _). unfold mod_call in H'. cbn [em_body em_size] in H'.
  destruct (mod_table prem g1 g2 g3) as [T'| |] eqn:E; cbn [obind] in H'; try discriminate. injection H' as <-. split.
  - unfold make_mod_default, make_mod. destruct B as [s ->]. cbn [obind]. rewrite E. reflexivity.
  - intros N M. destruct (make_mod_inv _ _ _ _ _ _ M) as (T2 & E2 & _ & ET2). injection E2 as <-.
    unfold mod_table in E. destruct prem; [discriminate|]. destruct (make_table_inv _ _ _ _ E) as (X & _). destruct (make_table_inv _ _ _ _ ET2) as (X2 & _). congruence.
Qed.
(** Rows after the 201st keep their density, whatever the factors. *)
Theorem c82_rows_refuted : forall km cm prem rows f1 f2 f3 e t i r, make_mod prem rows f1 f2 f3 = Ok e -> in_air t -> nth_error rows i = Some r -> (201 <= i)%nat ->
  point km t = r_x r * 6391 -> point km t <= 6371 -> density km cm (em_body e) t = Ok (r_rho r).
Proof.
  intros km cm prem rows f1 f2 f3 e t i r H Ht Hr Hi Hp Hs. rewrite (nodes km cm prem rows f1 f2 f3 e t i r); trivial. f_equal. unfold layer.
  destruct (Nat.ltb_spec i 39); [lia|]. destruct (Nat.ltb_spec i 110); [lia|]. destruct (Nat.ltb_spec i 201); [lia|]. ring.
Qed.

(** Saved and read back: right for files with as many rows as the PREM, as an EarthAtm of the same values. *)
Theorem c82_saved_partial : forall km prem rows f1 f2 f3 e, make_mod prem rows f1 f2 f3 = Ok e -> List.length rows = List.length prem ->
  exists g, ser_mod e = Ok g /\ deser_body km "EarthAtm" g = Ok (em_body e).
Proof.
  intros km prem rows f1 f2 f3 e H Hl. destruct (make_mod_inv _ _ _ _ _ _ H) as (T & -> & _ & ET). destruct (make_table_inv _ _ _ _ ET) as (Ex & Ea & Eb & _).
  assert (LX : List.length (t_x T) = List.length prem) by (rewrite Ex, map_length; exact Hl).
  unfold ser_mod. cbn [em_body em_size]. rewrite LX, Nat.ltb_irrefl. eexists. split; [reflexivity|].
  rewrite !firstn_all2; [|rewrite Eb, map_length; lia|rewrite Ea, weighted_length; lia|lia].
  pose proof (c26_bodies km (EarthAtm T 6371 20) _ _ _ 6371 20 (or_intror (or_intror (or_intror (or_intror (or_intror (or_intror (ex_intro _ T (conj ET eq_refl))))))))) as C.
  unfold reread in C. cbn [body_name ser_body put_table app] in C. rewrite LX in C. exact C.
Qed.
(** With fewer rows elements after the end are written, with more the table is cut. *)
Theorem c82_saved_refuted : forall km prem rows f1 f2 f3 e, make_mod prem rows f1 f2 f3 = Ok e ->
  ((List.length rows < List.length prem)%nat -> ser_mod e = UB) /\
  ((List.length prem < List.length rows)%nat -> exists g e', ser_mod e = Ok g /\ deser_body km "EarthAtm" g = Ok e' /\ e' <> em_body e).
Proof.
  intros km prem rows f1 f2 f3 e H.
  assert (B : exists s, earthatm_of prem = Ok s).
  { unfold make_mod in H. destruct (earthatm_of prem) as [s| |]; [eauto|discriminate|discriminate]. }
  destruct B as [s0 B]. destruct (earthatm_inv _ _ B) as (P & _ & EP). destruct (make_table_inv _ _ _ _ EP) as (_ & _ & _ & PA & _). destruct (spline_of_inv _ _ _ PA) as (_ & PN & _). rewrite map_length in PN.
  destruct (make_mod_inv _ _ _ _ _ _ H) as (T & -> & _ & ET). destruct (make_table_inv _ _ _ _ ET) as (Ex & Ea & Eb & Sa & Sb).
  unfold ser_mod. cbn [em_body em_size]. rewrite Ex, map_length. split; intros L; [now rewrite (proj2 (Nat.ltb_lt _ _) L)|].
  destruct (Nat.ltb_spec (List.length rows) (List.length prem)) as [|_]; [lia|]. set (n := List.length prem) in *.
  destruct (spline_of_inv _ _ _ Sa) as (_ & N3 & Hi & _). rewrite map_length in N3, Hi.
  assert (cut : forall y, List.length y = List.length rows -> exists s, spline_of (firstn n (map r_x rows)) (firstn n y) = Ok s).
  { intros y Hy. unfold spline_of. rewrite !firstn_length, map_length, Hy, Nat.eqb_refl, Nat.min_l by lia. eexists. apply akima_ok; [exact PN|].
    intros j Hj. unfold col. rewrite !nth_firstn_lt by lia. apply (Hi j). lia. }
  destruct (cut (weighted f1 f2 f3 0 rows) (weighted_length _ _ _ _ _)) as [sa SA]. destruct (cut (map r_ye rows) (map_length _ _)) as [sb SB].
  set (T' := Table (firstn n (map r_x rows)) (firstn n (weighted f1 f2 f3 0 rows)) (firstn n (map r_ye rows)) sa sb).
  assert (ET' : make_table (firstn n (map r_x rows)) (firstn n (weighted f1 f2 f3 0 rows)) (firstn n (map r_ye rows)) = Ok T').
  { unfold make_table. rewrite SA. cbn [obind]. rewrite SB. reflexivity. }
  eexists. exists (EarthAtm T' 6371 20). split; [reflexivity|]. split.
  - cbn [deser_body String.eqb Ascii.eqb Bool.eqb get_num_or lookup get_num obind]. rewrite Ea, Eb.
    erewrite get_table_ok; [rewrite ET'; reflexivity|exact ET'| | | | ].
    + cbn [lookup String.eqb Ascii.eqb Bool.eqb]. rewrite firstn_length, map_length, Nat.min_l by lia. reflexivity.
    + reflexivity.
    + reflexivity.
    + reflexivity.
  - intros E. injection E as E. assert (X : t_x T' = t_x T) by congruence. cbn in X. rewrite Ex in X. apply (f_equal (@List.length R)) in X. rewrite firstn_length, map_length in X. lia.
Qed.

(** ** LinearCrossSections *)
(** The differential cross section (per GeV) integrated over the outgoing energy up to any energy above the incoming one is the total one. *)
Theorem c82_linear_integral : forall gf mp GeV q E1 c s X, 0 < E1 -> 0 < GeV -> E1 <= X -> lin_total gf mp q E1 c = Ok s ->
  integral (fun E2 => match lin_diff gf mp GeV q E1 E2 c with Ok d => d / GeV | _ => 0 end) 0 X s /\
  integral (fun E2 => match lin_diff gf mp GeV q E1 E2 c with Ok d => d / GeV | _ => 0 end) 0 E1 s /\
  (forall E2, exists d, lin_diff gf mp GeV q E1 E2 c = Ok d).
Proof.
  intros gf mp GeV q E1 c s X H1 HG HX Hs.
  assert (A : integral (fun E2 => match lin_diff gf mp GeV q E1 E2 c with Ok d => d / GeV | _ => 0 end) 0 E1 s).
  { replace s with ((s / E1 ^ 2) * E1 ^ 2 - (s / E1 ^ 2) * 0 ^ 2) at 1 by (field; lra).
    apply (integral_ext _ (fun E2 => s / E1 ^ 2 * (2 * E2))); [lra| |].
    - intros E2 HE. unfold lin_diff. destruct (Rlt_dec E1 E2); [lra|]. destruct (Rlt_dec E2 0); [lra|]. rewrite Hs. cbn [obind]. field. lra.
    - apply (integral_antiderivative (fun x => s / E1 ^ 2 * x ^ 2)); [lra| |].
      + intros x. apply derivable_pt_lim_scal. pose proof (derivable_pt_lim_pow x 2) as P. cbn [INR pred] in P. replace (2 * x) with ((1 + 1) * x ^ 1) by ring. exact P.
      + intros x. apply derivable_continuous_pt. apply derivable_pt_scal. apply derivable_pt_scal. apply derivable_pt_id. }
  split; [|split; [exact A|]].
  - replace s with (s + 0) by ring. apply (integral_chasles _ 0 E1 X); [lra|lra|exact A|].
    replace 0 with (0 * (X - E1)) by ring. apply (integral_ext _ (fun _ => 0)); [exact HX| |now apply integral_const].
    intros E2 HE. unfold lin_diff. destruct (Rlt_dec E1 E2); [|lra]. unfold Rdiv. ring.
  - intros E2. unfold lin_diff. destruct (Rlt_dec E1 E2); [eauto|]. destruct (Rlt_dec E2 0); [eauto|]. rewrite Hs. cbn [obind]. eauto.
Qed.

(** Charged and neutral currents share a total proportional to the energy, in proportions 1-q and q, both without sign for q in [0,1]; a Glashow cross section is refused at energies that can be reached. *)
Theorem c82_linear_share : forall gf mp GeV q, 0 < gf -> 0 < mp -> 0 <= q <= 1 -> exists k, 0 < k /\
  (forall E, lin_total gf mp q E CurCC = Ok ((1 - q) * (k * E)) /\ lin_total gf mp q E CurNC = Ok (q * (k * E)) /\ lin_total gf mp q E CurGR = Throw RuntimeError) /\
  (forall E1 E2 c d, 0 < E1 -> 0 < GeV -> lin_diff gf mp GeV q E1 E2 c = Ok d -> 0 <= d) /\
  (forall E1 E2, 0 <= E2 <= E1 -> lin_diff gf mp GeV q E1 E2 CurGR = Throw RuntimeError).
Proof.
  intros gf mp GeV q Hg Hm Hq. exists (/ 10 ^ 7 * 2 * gf * gf * mp).
  assert (K : 0 < / 10 ^ 7 * 2 * gf * gf * mp) by (repeat apply Rmult_lt_0_compat; lra).
  assert (T : forall E, lin_total gf mp q E CurCC = Ok ((1 - q) * (/ 10 ^ 7 * 2 * gf * gf * mp * E)) /\ lin_total gf mp q E CurNC = Ok (q * (/ 10 ^ 7 * 2 * gf * gf * mp * E)) /\
    lin_total gf mp q E CurGR = Throw RuntimeError).
  { intros E. cbn [lin_total]. repeat split; f_equal; ring. }
  split; [exact K|]. split; [exact T|]. split.
  - intros E1 E2 c d H1 HG. unfold lin_diff. destruct (Rlt_dec E1 E2); [intros H; injection H as <-; lra|]. destruct (Rlt_dec E2 0); [intros H; injection H as <-; lra|].
    destruct (T E1) as (T1 & T2 & T3). assert (P : 0 <= / 10 ^ 7 * 2 * gf * gf * mp * E1) by (apply Rmult_le_pos; lra). set (k := / 10 ^ 7 * 2 * gf * gf * mp * E1) in *.
    assert (Q : forall s, 0 <= s -> 0 <= s / (E1 / GeV) * (2 * E2 / E1)).
    { intros s Hs. apply Rmult_le_pos; (apply Rmult_le_pos; [lra|]; left; apply Rinv_0_lt_compat); [|lra]. apply Rdiv_lt_0_compat; lra. }
    destruct c; [rewrite T1|rewrite T2|rewrite T3]; cbn [obind]; intros H; try discriminate; injection H as <-; apply Q; apply Rmult_le_pos; lra.
  - intros E1 E2 HE. unfold lin_diff. destruct (Rlt_dec E1 E2); [lra|]. destruct (Rlt_dec E2 0); [lra|]. reflexivity.
Qed.

(** ** Cases that meet the hypotheses *)
Lemma make_mod_ok prem rows f1 f2 f3 : (3 <= List.length prem)%nat -> increasing (col (map r_x prem)) (List.length prem) -> (3 <= List.length rows)%nat -> increasing (col (map r_x rows)) (List.length rows) ->
  exists e, make_mod prem rows f1 f2 f3 = Ok e.
Proof.
  intros P1 P2 R1 R2.
  assert (G : forall l w, (3 <= List.length l)%nat -> increasing (col (map r_x l)) (List.length l) -> List.length w = List.length l -> exists T, make_table (map r_x l) w (map r_ye l) = Ok T).
  { intros l w L1 L2 L3. unfold make_table, spline_of. rewrite !map_length, L3, Nat.eqb_refl. rewrite !akima_ok by assumption. cbn [obind]. eauto. }
  destruct (G prem (map r_rho prem) P1 P2 (map_length _ _)) as [TP EP]. destruct (G rows (weighted f1 f2 f3 0 rows) R1 R2 (weighted_length _ _ _ _ _)) as [TR ER].
  unfold make_mod, earthatm_of, make_earthatm, mod_table. destruct prem; [cbn in P1; lia|]. destruct rows; [cbn in R1; lia|]. rewrite EP. cbn [obind]. rewrite ER. cbn [obind]. eauto.
Qed.
Definition ex_prem : list row := [(0, 13, 1 / 2); (1 / 4, 11, 1 / 2); (1 / 2, 5, 1 / 2); (3 / 4, 4, 1 / 2); (1, 1, 1 / 2)].
Definition ex_file : list row := [(0, 12, 1 / 2); (1 / 2, 6, 1 / 2); (1, 1, 1 / 2)].
Lemma ex_prem_inc : increasing (col (map r_x ex_prem)) 5.
Proof. intros i H. unfold col. destruct i as [|[|[|[|i]]]]; cbn; try lra. lia. Qed.
Lemma ex_file_inc : increasing (col (map r_x ex_file)) 3.
Proof. intros i H. unfold col. destruct i as [|[|i]]; cbn; try lra. lia. Qed.
(** with a table of five rows and the point at the centre of the Earth (an upward track that is half-way, of a length of twice the radius plus the height) *)
Example c82_example : exists e, make_mod ex_prem ex_prem 2 3 5 = Ok e /\ make_mod_default ex_prem 2 3 5 = Ok e /\ (exists e', mod_calls ex_prem [(7, 8, 9); (2, 3, 5)] e = Ok e' /\ e' = e) /\
  (exists s, earthatm_of ex_prem = Ok s) /\ nth_error ex_prem 2 = Some (1 / 2, 5, 1 / 2) /\ (forall k, (k < 5)%nat -> layer 2 3 5 k = 2) /\
  (exists e' e'', make_mod ex_prem ex_file 2 3 5 = Ok e' /\ mod_call ex_prem 2 3 5 e' = Ok e'' /\ map r_x ex_file <> map r_x ex_prem) /\
  (exists e', make_mod ex_file ex_prem 2 3 5 = Ok e') /\ layer 2 3 5 38 = 2 /\ layer 2 3 5 39 = 3 /\ layer 2 3 5 109 = 3 /\ layer 2 3 5 110 = 5 /\ layer 2 3 5 200 = 5 /\ layer 2 3 5 201 = 1.
Proof.
  destruct (make_mod_ok ex_prem ex_prem 2 3 5 ltac:(cbn; lia) ex_prem_inc ltac:(cbn; lia) ex_prem_inc) as [e E].
  assert (D : forall f1 f2 f3 x, make_mod ex_prem x 2 3 5 = Ok e -> exists e', mod_call ex_prem f1 f2 f3 e = Ok e').
  { intros f1 f2 f3 x X. destruct (make_mod_inv _ _ _ _ _ _ X) as (T & -> & _). destruct (make_mod_ok ex_prem ex_prem f1 f2 f3 ltac:(cbn; lia) ex_prem_inc ltac:(cbn; lia) ex_prem_inc) as [e' E'].
    unfold make_mod in E'. destruct (earthatm_of ex_prem); cbn [obind] in E'; try discriminate. unfold mod_call. cbn [em_body em_size].
    destruct (mod_table ex_prem f1 f2 f3); cbn [obind] in *; try discriminate. eauto. }
  exists e. split; [exact E|]. split; [exact E|]. split.
  { destruct (mod_calls ex_prem ([(7, 8, 9)] ++ [(2, 3, 5)]) e) as [e'| |] eqn:C.
    - exists e'. split; [exact C|]. pose proof (c82_mod_last _ _ _ _ _ _ _ _ E C) as L. cbn [fst snd] in L. unfold make_mod_default in L. congruence.
    - exfalso. cbn [app mod_calls] in C. destruct (D 7 8 9 _ E) as [e1 E1]. rewrite E1 in C. cbn [obind] in C.
      destruct (make_mod_inv _ _ _ _ _ _ E) as (T & -> & _). unfold mod_call in E1, C. cbn [em_body em_size] in E1. destruct (mod_table ex_prem 7 8 9); cbn [obind] in E1; try discriminate. injection E1 as <-. cbn [em_body] in C.
      unfold make_mod in E. destruct (earthatm_of ex_prem); cbn [obind] in E; try discriminate. destruct (mod_table ex_prem 2 3 5); cbn [obind] in *; discriminate.
    - exfalso. cbn [app mod_calls] in C. destruct (D 7 8 9 _ E) as [e1 E1]. rewrite E1 in C. cbn [obind] in C.
      destruct (make_mod_inv _ _ _ _ _ _ E) as (T & -> & _). unfold mod_call in E1, C. cbn [em_body em_size] in E1. destruct (mod_table ex_prem 7 8 9); cbn [obind] in E1; try discriminate. injection E1 as <-. cbn [em_body] in C.
      unfold make_mod in E. destruct (earthatm_of ex_prem); cbn [obind] in E; try discriminate. destruct (mod_table ex_prem 2 3 5); cbn [obind] in *; discriminate. }
  split. { unfold make_mod in E. destruct (earthatm_of ex_prem); cbn [obind] in E; try discriminate. eauto. }
  split; [reflexivity|]. split. { intros k Hk. unfold layer. destruct (Nat.ltb_spec k 39); [reflexivity|lia]. }
  split.
  { destruct (make_mod_ok ex_prem ex_file 2 3 5 ltac:(cbn; lia) ex_prem_inc ltac:(cbn; lia) ex_file_inc) as [e' E']. exists e'.
    unfold mod_call. destruct (make_mod_inv _ _ _ _ _ _ E') as (T & -> & _). cbn [em_body em_size]. unfold make_mod in E. destruct (earthatm_of ex_prem); cbn [obind] in E; try discriminate.
    destruct (mod_table ex_prem 2 3 5); cbn [obind] in *; try discriminate. eexists. split; [exact E'|]. split; [reflexivity|]. intros X. apply (f_equal (@List.length R)) in X. discriminate. }
  split; [apply (make_mod_ok ex_file ex_prem 2 3 5 ltac:(cbn; lia) ex_file_inc ltac:(cbn; lia) ex_prem_inc)|]. repeat split; reflexivity.
Qed.
(** and a track whose point is at the row 2 *)
Example c82_example_point : exists t, in_air t /\ point 1 t = (1 / 2) * 6391.
Proof.
  exists (EarthAtmTrack (6391 / 2) 0 0 1 0 0 20). split; [exact I|]. cbn [point]. unfold atm_r, sqr. cbv zeta.
  replace ((6371 + 20) * (6371 + 20) - 6371 * 6371 * (1 - 1 * 1)) with (6391 * 6391) by lra. rewrite sqrt_square by lra.
  rewrite lt_true by lra. match goal with |- sqrt ?z = _ => replace z with ((1 / 2 * 6391) * (1 / 2 * 6391)) by lra end. apply sqrt_square. lra.
Qed.
Example c82_example_linear : lin_total 1 1 (1 / 2) 3 CurCC = Ok (/ 10 ^ 7 * 3) /\ lin_total 1 1 (1 / 4) 3 CurNC = Ok (/ 10 ^ 7 * (3 / 2)).
Proof. cbn [lin_total]. split; f_equal; field. Qed.

Print Assumptions c82_nodes. Print Assumptions c82_inside. Print Assumptions c82_uniform. Print Assumptions c82_composition. Print Assumptions c82_mod_last. Print Assumptions c82_mod_file_refuted.
Print Assumptions c82_rows_refuted. Print Assumptions c82_saved_partial. Print Assumptions c82_saved_refuted. Print Assumptions c82_linear_integral. Print Assumptions c82_linear_share.
