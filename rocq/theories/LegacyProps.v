(** C89: bodies and tracks of old files. *)
From Coq Require Import List Arith Reals Lia Lra Bool.
From Verif Require Import Err AkimaModel BodyModel BodyProofs BodyProps LegacyModel.
Import ListNotations.
Local Open Scope R_scope.

Section Props.
Variable km : R.
Variables prem_earth library_sun library_sunasnu prem_atm : outcome body.
Notation restore := (restore km prem_earth library_sun library_sunasnu prem_atm).
Notation set_body_track := (set_body_track km prem_earth library_sun library_sunasnu prem_atm).

Lemma elems_mid p l q : elems (p ++ l ++ q) (List.length p) (List.length l) = Ok l.
Proof.
  revert p. induction l as [|v l IH]; intro p; [reflexivity|]. cbn [List.length elems].
  unfold elem. rewrite nth_error_app2 by lia. rewrite Nat.sub_diag. cbn [nth_error app obind].
  replace (p ++ v :: l ++ q) with ((p ++ [v]) ++ l ++ q) by (rewrite <- app_assoc; reflexivity).
  replace (S (List.length p)) with (List.length (p ++ [v])) by (rewrite app_length; cbn; lia).
  rewrite IH. reflexivity.
Qed.

(** Matching body and track of the kinds that keep their parameters. *)
Definition plain (b : body) (t : track) : Prop :=
  match b, t with
  | Vacuum, Rect KVacuum _ _ _ | ConstantDensity _ _, Rect KConstantDensity _ _ _ => True
  | VariableDensity T, Rect KVariableDensity _ _ _ => make_variable (t_x T) (t_a T) (t_b T) = Ok b
  | _, _ => False
  end.

(** They come back exactly, at their present position, reversed or not. *)
Theorem c89_plain b t : plain b t -> restore (old_of b t) = Ok (Some (b, t)).
Proof.
  destruct b as [|r y|T|T|T|T rad|T rad h], t as [[| | |] x i e|x i e bl|x i e bi|x i e c er ah L]; cbn [plain]; try contradiction; intro P.
  - reflexivity.
  - reflexivity.
  - unfold restore, LegacyModel.restore, old_of. cbn [o_id o_x o_body o_track body_id body_params track_params app ini fin pos].
    unfold make_variable, make_table, spline_of in P.
    destruct (Nat.eqb_spec (List.length (t_x T)) (List.length (t_a T))) as [E1|]; [|discriminate].
    destruct (akima _ _ (List.length (t_x T))) as [sa| |] eqn:A1 in P; cbn [obind] in P; try discriminate.
    destruct (Nat.eqb_spec (List.length (t_x T)) (List.length (t_b T))) as [E2|]; [|discriminate].
    destruct (akima (col (t_x T)) (col (t_b T)) _) as [sb| |] eqn:A2 in P; cbn [obind] in P; try discriminate.
    cbn [set_body_track LegacyModel.set_body_track]. set (n := List.length (t_x T)) in *.
    assert (Len : (List.length (t_x T ++ t_a T ++ t_b T) / 3 = n)%nat).
    { rewrite !app_length. fold n. rewrite <- E1, <- E2. replace (n + (n + n))%nat with (n * 3)%nat by lia. apply Nat.div_mul. lia. }
    rewrite Len.
    assert (X : elems (t_x T ++ t_a T ++ t_b T) 0 n = Ok (t_x T)) by apply (elems_mid [] (t_x T) (t_a T ++ t_b T)).
    assert (Y : elems (t_x T ++ t_a T ++ t_b T) n n = Ok (t_a T)).
    { rewrite E1 at 2. apply (elems_mid (t_x T) (t_a T) (t_b T)). }
    assert (Z : elems (t_x T ++ t_a T ++ t_b T) (2 * n) n = Ok (t_b T)).
    { pose proof (elems_mid (t_x T ++ t_a T) (t_b T) []) as Q. rewrite app_nil_r, <- app_assoc, app_length in Q.
      rewrite <- E2, <- E1 in Q. fold n in Q. replace (2 * n)%nat with (n + n)%nat by lia. exact Q. }
    rewrite X, Y, Z. cbn [obind]. unfold make_variable, make_table, spline_of. fold n. rewrite <- E1, Nat.eqb_refl.
    rewrite <- E2. rewrite Nat.eqb_refl. rewrite A1, A2. cbn [obind].
    injection P as P. cbn. rewrite P. reflexivity.
Qed.

(** Tracks through the Earth and the Sun come back exactly, whatever the body. *)
Theorem c89_earth_sun T x i e l b s : prem_earth = Ok b -> library_sun = Ok s ->
  restore (old_of (Earth T) (EarthTrack x i e l)) = Ok (Some (b, EarthTrack x i e l)) /\
  restore (old_of (Sun T) (Rect KSun x i e)) = Ok (Some (s, Rect KSun x i e)).
Proof. intros E S. unfold restore, LegacyModel.restore, old_of. cbn. rewrite E, S. split; reflexivity. Qed.

(** An atmospheric track made with an angle in the default Earth comes back exactly. *)
Theorem c89_atm T phi x t : prem_atm = Ok (EarthAtm T 6371 22) -> make_track km (EarthAtm T 6371 22) phi = Some t ->
  restore (old_of (EarthAtm T 6371 22) (set_x t x)) = Ok (Some (EarthAtm T 6371 22, set_x t x)).
Proof.
  intros P E. cbn [make_track] in E. injection E as <-. unfold restore, LegacyModel.restore, old_of. cbn.
  rewrite P. cbn. rewrite cos_acos by apply COS_bound. reflexivity.
Qed.

(** Refuted: an Earth or a Sun made from another table never comes back. *)
Theorem c89_other_tables_refuted T x i e l b s : prem_earth = Ok b -> library_sun = Ok s ->
  (Earth T <> b -> forall t', restore (old_of (Earth T) (EarthTrack x i e l)) <> Ok (Some (Earth T, t'))) /\
  (Sun T <> s -> forall t', restore (old_of (Sun T) (Rect KSun x i e)) <> Ok (Some (Sun T, t'))).
Proof.
  intros P Q. destruct (c89_earth_sun T x i e l b s P Q) as [A B]. rewrite A, B.
  split; intros N t' E; injection E as E _; apply N; symmetry; exact E.
Qed.

(** Refuted: an atmosphere of another height is forgotten, and with it the
    length of the track. *)
Theorem c89_height_refuted T h phi t : 0 < km -> prem_atm = Ok (EarthAtm T 6371 22) -> 22 < h ->
  make_track km (EarthAtm T 6371 h) phi = Some t ->
  exists t', restore (old_of (EarthAtm T 6371 h) t) = Ok (Some (EarthAtm T 6371 22, t')) /\ fin t' < fin t.
Proof.
  intros K P H E. cbn [make_track] in E. injection E as <-. unfold restore, LegacyModel.restore, old_of. cbn.
  rewrite P. cbn. eexists. split; [reflexivity|]. cbn. rewrite cos_acos by apply COS_bound.
  unfold atm_length, sqr. pose proof (COS_bound phi) as B.
  apply Rplus_lt_compat_r. set (c := cos phi) in *. set (r := 6371 * km).
  assert (R0 : 0 < r) by (unfold r; lra).
  assert (HH : 22 * km < h * km) by (apply Rmult_lt_compat_r; assumption).
  assert (H0 : 0 < 22 * km) by lra. set (g := 22 * km) in *. set (q := h * km) in *.
  apply sqrt_lt_1_alt. split.
  - assert (0 <= r * r * (c * c)) by (apply Rmult_le_pos; [nra|apply Rle_0_sqr]). nra.
  - nra.
Qed.

(** Refuted: a reversed atmospheric track comes back forward. *)
Theorem c89_reversed_refuted T phi t : prem_atm = Ok (EarthAtm T 6371 22) -> make_track km (EarthAtm T 6371 22) phi = Some t ->
  restore (old_of (EarthAtm T 6371 22) (reverse t)) = Ok (Some (EarthAtm T 6371 22, t)).
Proof.
  intros P E. cbn [make_track] in E. injection E as <-. unfold restore, LegacyModel.restore, old_of. cbn.
  rewrite P. cbn. rewrite cos_acos by apply COS_bound. reflexivity.
Qed.

(** Refuted: of a track past the centre of the Sun the end is taken for the
    impact parameter; they agree at one value only. *)
Theorem c89_sunasnu_refuted T rad x i bi b : 0 < km -> 0 <= bi <= 694439 * km -> library_sunasnu = Ok b ->
  let t := sunasnu_track km x i bi in
  exists e', restore (old_of (SunASnu T rad) t) = Ok (Some (b, SunASnuTrack x i e' (fin t))) /\
  (fin t = bi -> 5 * (bi * bi) = 4 * ((694439 * km) * (694439 * km))).
Proof.
  intros K B P t. eexists. split.
  - unfold restore, LegacyModel.restore, old_of, t. cbn. rewrite P. cbn. reflexivity.
  - unfold t, sunasnu_track. cbn [fin]. unfold sunasnu_file_radius, sqr. intro E.
    assert (N : 0 <= (694439 * km) * (694439 * km) - bi * bi) by nra.
    pose proof (sqrt_sqrt _ N) as Q. set (s := sqrt _) in *. nra.
Qed.

(** Refuted: the number of parameters is not looked at; with too few the reader
    runs past the end of the array. *)
Theorem c89_short_refuted tp x b s u a : prem_earth = Ok b -> library_sun = Ok s -> library_sunasnu = Ok u -> prem_atm = Ok a ->
  (forall r y, (List.length tp < 2)%nat ->
     restore (Old (Some 1%nat) [] tp (Some x)) = UB /\ restore (Old (Some 2%nat) [r; y] tp (Some x)) = UB /\
     restore (Old (Some 5%nat) [] tp (Some x)) = UB /\ restore (Old (Some 6%nat) [] tp (Some x)) = UB) /\
  ((List.length tp < 3)%nat -> restore (Old (Some 4%nat) [] tp (Some x)) = UB /\ restore (Old (Some 7%nat) [] tp (Some x)) = UB).
Proof.
  intros E1 E2 E3 E4. split.
  - intros r y L. unfold restore, LegacyModel.restore. cbn [o_id o_x o_body o_track LegacyModel.set_body_track].
    rewrite E2, E3. destruct tp as [|v [|w tp]]; [| |cbn in L; lia]; repeat split.
  - intros L. unfold restore, LegacyModel.restore. cbn [o_id o_x o_body o_track LegacyModel.set_body_track].
    rewrite E1, E4. destruct tp as [|v [|w [|z tp]]]; [| | |cbn in L; lia]; repeat split.
Qed.

(** Refuted: any other number ends the process instead of throwing; the numbers
    1 to 7 never do. *)
Theorem c89_unknown_refuted id bp tp x :
  restore (Old (Some id) bp tp (Some x)) = Ok None <-> ~ (1 <= id <= 7)%nat.
Proof.
  unfold restore, LegacyModel.restore. cbn [o_id o_x o_body o_track].
  assert (A : forall (X : Type) (o : outcome X) (k : X -> outcome (option (body * track))),
             (forall v, k v <> Ok None) -> obind o k <> Ok None).
  { intros X [v|e|] k P; cbn [obind]; [apply P|discriminate|discriminate]. }
  assert (B : (1 <= id <= 7)%nat -> forall k, (forall p, k (Some p) <> Ok None) ->
    obind (set_body_track id bp tp) k <> @Ok (option (body * track)) None).
  { intros I k K. unfold set_body_track.
    destruct id as [|[|[|[|[|[|[|[|id]]]]]]]]; try lia; cbn [LegacyModel.set_body_track];
      repeat match goal with |- context [obind (obind ?o ?f) k] =>
        replace (obind (obind o f) k) with (obind o (fun v => obind (f v) k)) by (destruct o; reflexivity); apply A; intro; cbv beta zeta end;
      try (cbn [obind]; apply K).
    destruct (make_track km _ _); cbn [obind]; [apply K|discriminate]. }
  split.
  - intros E I. revert E. apply B; [exact I|]. intros [b t]. discriminate.
  - intro N. do 8 (destruct id as [|id]; [try reflexivity; lia|]). reflexivity.
Qed.
End Props.

(** ** Tau spectra *)
Lemma elems_val l i k r : elems l i k = Ok r -> List.length r = k /\ forall j, (j < k)%nat -> nth_error l (i + j) = Some (nth j r 0).
Proof.
  revert i r. induction k as [|k IH]; intros i r; cbn [elems].
  - intro E. injection E as <-. split; [reflexivity|]. intros; lia.
  - unfold elem. destruct (nth_error l i) as [v|] eqn:V; [|discriminate]. cbn [obind].
    destruct (elems l (S i) k) as [q| |] eqn:Q; cbn [obind]; try discriminate. intro E. injection E as <-.
    destruct (IH _ _ Q) as [L P]. split; [cbn; rewrite L; reflexivity|]. intros [|j] J.
    + rewrite Nat.add_0_r. exact V.
    + replace (i + S j)%nat with (S i + j)%nat by lia. apply P. lia.
Qed.
Lemma elems_defined l i k : (i + k <= List.length l)%nat -> exists r, elems l i k = Ok r.
Proof.
  revert i. induction k as [|k IH]; intros i L; cbn [elems]; [eexists; reflexivity|].
  unfold elem. destruct (nth_error l i) as [v|] eqn:V; [|apply nth_error_None in V; lia]. cbn [obind].
  destruct (IH (S i)) as [q Q]; [lia|]. rewrite Q. eexists. reflexivity.
Qed.
Lemma rows_val ne m data e1 k r : read_tau_rows ne m data e1 k = Ok r ->
  List.length r = k /\ forall i, (i < k)%nat -> read_tau_row ne m data (e1 + i) = Ok (nth i r []).
Proof.
  revert e1 r. induction k as [|k IH]; intros e1 r; cbn [read_tau_rows].
  - intro E. injection E as <-. split; [reflexivity|]. intros; lia.
  - destruct (read_tau_row ne m data e1) as [a| |] eqn:A; cbn [obind]; try discriminate.
    destruct (read_tau_rows ne m data (S e1) k) as [q| |] eqn:Q; cbn [obind]; try discriminate. intro E. injection E as <-.
    destruct (IH _ _ Q) as [L P]. split; [cbn; rewrite L; reflexivity|]. intros [|i] I.
    + rewrite Nat.add_0_r. exact A.
    + replace (e1 + S i)%nat with (S e1 + i)%nat by lia. apply P. lia.
Qed.
Lemma rows_defined ne m data e1 k : (e1 + k <= ne)%nat -> (ne * ne <= List.length data)%nat -> exists r, read_tau_rows ne m data e1 k = Ok r.
Proof.
  revert e1. induction k as [|k IH]; intros e1 L D; cbn [read_tau_rows]; [eexists; reflexivity|].
  unfold read_tau_row. destruct (elems_defined data (e1 * ne) e1) as [a A]; [nia|]. rewrite A. cbn [obind].
  destruct (IH (S e1)) as [q Q]; [lia|exact D|]. rewrite Q. eexists. reflexivity.
Qed.

(** A square table: every kind gets the entries below the diagonal, the rest is zero. *)
Theorem c89_tau nrhos ne m data : (0 < nrhos)%nat -> (ne <= m)%nat -> List.length data = (ne * ne)%nat ->
  exists a, read_tau nrhos ne m data = Ok a /\
  forall r i j, (r < nrhos)%nat -> (i < ne)%nat -> (j < m)%nat ->
    tau_at a r i j = if (j <? i)%nat then nth (i * ne + j) data 0 else 0.
Proof.
  intros N M D. destruct (rows_defined ne m data 0 ne) as [t T]; [lia|lia|]. exists (repeat t nrhos). split.
  - unfold read_tau. destruct nrhos; [lia|]. rewrite T. reflexivity.
  - intros r i j Hr Hi Hj. unfold tau_at. rewrite (nth_indep _ _ t) by (rewrite repeat_length; exact Hr). rewrite nth_repeat.
    destruct (rows_val _ _ _ _ _ _ T) as [_ P]. specialize (P i Hi). cbn [Nat.add] in P. unfold read_tau_row in P.
    destruct (elems data (i * ne) i) as [l| |] eqn:L; cbn [obind] in P; try discriminate. injection P as P. rewrite <- P.
    destruct (elems_val _ _ _ _ L) as [Len V]. destruct (Nat.ltb_spec j i) as [J|J].
    + rewrite app_nth1 by lia. specialize (V j J). symmetry. apply nth_error_nth. exact V.
    + rewrite app_nth2 by lia. apply nth_repeat.
Qed.

(** Refuted: the size of the table is not compared with that of the grid; a table for
    a larger grid is read with the wrong rows, one for a smaller grid past its end. *)
Theorem c89_tau_size_refuted :
  (exists a, read_tau 1 3 4 [0;0;0;0; 1;0;0;0; 2;3;0;0; 4;5;6;0] = Ok a /\ tau_at a 0 1 0 <> 1) /\
  (forall nrhos ne m data, (0 < nrhos)%nat -> (2 <= ne)%nat -> (List.length data <= (ne - 1) * (ne - 1))%nat -> read_tau nrhos ne m data = UB).
Proof.
  split.
  - eexists. split; [cbn; reflexivity|]. unfold tau_at. cbn. lra.
  - intros nrhos ne m data N E D.
    assert (U : forall i k, elems data i k = UB \/ exists r, elems data i k = Ok r).
    { intros i k. revert i. induction k as [|k IH]; intro i; cbn [elems]; [right; eexists; reflexivity|].
      unfold elem. destruct (nth_error data i); cbn [obind]; [|left; reflexivity].
      destruct (IH (S i)) as [->|[q ->]]; cbn [obind]; [left; reflexivity|right; eexists; reflexivity]. }
    assert (W : forall k e1, (e1 + k = ne)%nat -> (0 < k)%nat -> read_tau_rows ne m data e1 k = UB).
    { induction k as [|k IH]; intros e1 L K; [lia|]. cbn [read_tau_rows]. unfold read_tau_row.
      destruct (U (e1 * ne)%nat e1) as [X|[r X]]; rewrite X; cbn [obind]; [reflexivity|].
      destruct k as [|k].
      - exfalso. destruct (elems_val _ _ _ _ X) as [_ V]. specialize (V (e1 - 1)%nat ltac:(lia)).
        assert (nth_error data (e1 * ne + (e1 - 1)) <> None) as Q by (rewrite V; discriminate). apply nth_error_Some in Q. nia.
      - rewrite IH by lia. reflexivity. }
    unfold read_tau. destruct nrhos; [lia|]. rewrite W by lia. reflexivity.
Qed.

Example c89_tau_case : (List.length [0;0;0; 1;0;0; 2;3;0] = 3 * 3)%nat /\ exists a, read_tau 2 3 4 [0;0;0; 1;0;0; 2;3;0] = Ok a /\ tau_at a 1 2 1 = 3.
Proof. split; [reflexivity|]. eexists. split; reflexivity. Qed.
(** A table, made in either way, and bodies standing for those of the library. *)
Example c89_case : exists T,
  plain (VariableDensity T) (reverse (Rect KVariableDensity 1 0 2)) /\ plain Vacuum (Rect KVacuum 1 0 2) /\ plain (ConstantDensity 5 (1/2)) (Rect KConstantDensity 0 0 2) /\
  (exists t, make_track 1 (EarthAtm T 6371 22) 1 = Some t) /\ (exists t, make_track 1 (EarthAtm T 6371 30) 1 = Some t) /\
  Earth T <> Vacuum /\ 0 <= 100 <= 694439 * 1 /\
  restore 1 (Ok (Earth T)) (Ok (Sun T)) (Ok (SunASnu T 1)) (Ok (EarthAtm T 6371 22)) (Old (Some 8%nat) [] [] (Some 0)) = Ok None.
Proof.
  destruct demo_table as [T HT]. exists T.
  split. { cbn. destruct (make_table_inv _ _ _ _ HT) as (Hx & Ha & Hb & _). rewrite Hx, Ha, Hb. unfold make_variable. rewrite HT. reflexivity. }
  split; [exact I|]. split; [exact I|]. split; [eexists; reflexivity|]. split; [eexists; reflexivity|].
  split; [discriminate|]. split; [lra|reflexivity].
Qed.

Print Assumptions c89_plain.
Print Assumptions c89_earth_sun.
Print Assumptions c89_atm.
Print Assumptions c89_other_tables_refuted.
Print Assumptions c89_height_refuted.
Print Assumptions c89_reversed_refuted.
Print Assumptions c89_sunasnu_refuted.
Print Assumptions c89_short_refuted.
Print Assumptions c89_unknown_refuted.
Print Assumptions c89_tau.
Print Assumptions c89_tau_size_refuted.
