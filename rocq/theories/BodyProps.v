(** Properties C23 (Earth), C24 (Earth with atmosphere), C25 (simple media), C26 (serialization), C27 (registry) and C64 (Sun).
    [profile x y f], in BodyProofs, says what a table stands for: f is the Akima interpolant of the table in its range and constant outside. *)
From Coq Require Import List Arith Reals Lra Lia String Psatz.
From Verif Require Import Err AkimaModel AkimaProofs AkimaBicubicProps H5Model H5Proofs BodyModel BodyProofs.
Import ListNotations.
Local Open Scope R_scope.

(** ** C23 *)
(** On every chord of the Earth, both quantities are the profile's at the point's distance to the centre, a fraction between 0 and 1. The
    foot of the perpendicular from the centre is at the middle of the chord. *)
Theorem c23_profile : forall km cm x a b e, 0 < km -> make_earth x a b = Ok e ->
  exists f g, profile x a f /\ profile x b g /\
  forall base p i j, 0 <= base <= 2 * 6371 * km -> 0 <= p <= base ->
    let u := (p - base / 2) / km in let d2 := 6371 ^ 2 - (base / 2 / km) ^ 2 in let q := sqrt (u ^ 2 + d2) / 6371 in
    0 <= q <= 1 /\ density km cm e (EarthTrack p i j base) = Ok (f q) /\ ye km cm e (EarthTrack p i j base) = Ok (g q).
Proof.
  intros km cm x a b e Hk H. unfold make_earth in H. destruct (make_table x a b) as [t| |] eqn:Et; cbn [obind] in H; try discriminate. injection H as <-.
  destruct (make_table_inv _ _ _ _ Et) as (Hx & Ha & Hb & Sa & Sb). exists (profile_fun x a), (profile_fun x b).
  pose proof (profile_ok _ _ _ Sa) as Pa. pose proof (profile_ok _ _ _ Sb) as Pb. repeat split; try apply Pa; try apply Pb.
  all: change (2 * 6371 * km) with (2 * earth_km * km) in *; cbv zeta.
  all: replace (((p - base / 2) / km) ^ 2 + (6371 ^ 2 - (base / 2 / km) ^ 2)) with ((p / km - base / km / 2) ^ 2 + (earth_km ^ 2 - (base / km / 2) ^ 2))
    by (unfold earth_km; field; lra); fold (chord_fraction km base p).
  1,2: now apply chord_bounds.
  - cbn [density]. apply earth_value_ok; rewrite ?Hx, ?Ha; trivial.
  - cbn [ye]. apply earth_value_ok; rewrite ?Hx, ?Hb; trivial.
Qed.
(** The same values at equal distances from the two ends, on every baseline and wherever the position. *)
Theorem c23_symmetric : forall km cm t base p i j k l, 0 < km ->
  density km cm (Earth t) (EarthTrack (base - p) i j base) = density km cm (Earth t) (EarthTrack p k l base).
Proof. intros km cm t base p i j k l Hk. cbn [density]. unfold earth_value. now rewrite earth_r_symmetric. Qed.
Theorem c23_symmetric_ye : forall km cm t base p i j k l, 0 < km -> ye km cm (Earth t) (EarthTrack (base - p) i j base) = ye km cm (Earth t) (EarthTrack p k l base).
Proof. intros km cm t base p i j k l Hk. cbn [ye]. unfold earth_value. now rewrite earth_r_symmetric. Qed.
(** A baseline longer than the diameter is refused near its middle: where the squared distance would be -10^-6 or less. *)
Theorem c23_too_long : forall km cm t base p i j, 0 < km -> ((p - base / 2) / km) ^ 2 + (6371 ^ 2 - (base / 2 / km) ^ 2) <= - / 10 ^ 6 ->
  density km cm (Earth t) (EarthTrack p i j base) = Throw RuntimeError /\ ye km cm (Earth t) (EarthTrack p i j base) = Throw RuntimeError.
Proof.
  intros km cm t base p i j Hk H. assert (E : earth_r km base p = Throw RuntimeError).
  { unfold earth_r. cbv zeta. rewrite chord_sq by exact Hk.
    replace (((p - base / 2) / km) ^ 2 + (6371 ^ 2 - (base / 2 / km) ^ 2)) with ((p / km - base / km / 2) ^ 2 + (earth_km ^ 2 - (base / km / 2) ^ 2)) in H
      by (unfold earth_km; field; lra). set (q := _ + _) in *.
    assert (0 < / 10 ^ 6) by (apply Rinv_0_lt_compat, pow_lt; lra). rewrite lt_false by lra. rewrite lt_false; [reflexivity|].
    rewrite Rabs_left by lra. lra. }
  cbn [density ye]. unfold earth_value. rewrite E. split; reflexivity.
Qed.

(** ** C24 *)
(** The trajectory made by an EarthAtm body for zenith angle phi starts at the top of the atmosphere, ends at the detector on the surface, never
    leaves the sphere, and its length is that of the straight line; [path_radius] in BodyProofs is the distance to the centre of the point of
    that line, the detector being at (0,r) and the line leaving it in direction (sqrt(1-c^2),c). *)
Definition line_radius (r c d : R) : R := sqrt ((d * sqrt (1 - c * c)) ^ 2 + (r + d * c) ^ 2).
Theorem c24_geometry : forall km T r h phi t, 0 < km -> 0 < r -> 0 <= h -> make_track km (EarthAtm T r h) phi = Some t ->
  let rad p := match t with EarthAtmTrack _ _ _ c _ _ L => atm_r km r h c L p | _ => 0 end in
  pos t = 0 /\ ini t = 0 /\ 0 <= fin t /\ rad 0 = r + h /\ rad (fin t) = r /\
  forall p, 0 <= p <= fin t -> 0 <= rad p <= r + h /\ rad p = line_radius r (cos phi) ((fin t - p) / km).
Proof.
  intros km T r h phi t Hk Hr Hh H. cbn [make_track] in H. injection H as <-. unfold atm_track. cbv zeta. cbn [pos ini fin].
  pose proof (COS_bound phi) as Hc. repeat split; try reflexivity.
  - now apply atm_length_nonneg.
  - rewrite atm_r_path by assumption. now apply path_start.
  - rewrite atm_r_path by assumption. now apply path_end.
  - rewrite atm_r_path by assumption. now apply path_inside.
  - rewrite atm_r_path by assumption. now apply path_inside.
  - rewrite atm_r_path by assumption. unfold path_radius, line_radius. cbv zeta. rewrite atm_length_km by assumption.
    replace (((S_len (cos phi) r h - r * cos phi) * km - p) / km) with (S_len (cos phi) r h - r * cos phi - p / km) by (field; lra). reflexivity.
Qed.
(** Made from the cosine instead: the same positions, and the same densities everywhere along it, in any medium. *)
Theorem c24_cosine : forall km cm T r h phi t t', make_track km (EarthAtm T r h) phi = Some t -> make_track_cos km (EarthAtm T r h) (cos phi) = Some t' ->
  ini t' = ini t /\ fin t' = fin t /\ forall e p, density km cm e (set_x t' p) = density km cm e (set_x t p) /\ ye km cm e (set_x t' p) = ye km cm e (set_x t p).
Proof. intros km cm T r h phi t t' H H'. injection H as <-. injection H' as <-. repeat split; destruct e; reflexivity. Qed.
(** The values along the path: the air's above the surface; below it the profile's, at the fraction of the radius including the atmosphere. The
    table must begin below the surface. *)
Theorem c24_profile : forall km cm x a b e r h, 0 < km -> 0 < r -> 0 <= h -> make_earthatm x a b = Ok e ->
  nth 0 x 0 * (r + h) <= r ->
  exists f g, profile x a f /\ profile x b g /\
  forall T c p i j k l, e = EarthAtm T 6371 22 -> -1 <= c <= 1 ->
    let L := atm_length c (r * km) (h * km) in let q := path_radius km c r h p in let t := EarthAtmTrack p i j c k l L in
    (q > r -> density km cm (EarthAtm T r h) t = Ok (12 / 10000 * exp (- (q - r) / (7594 / 1000))) /\ ye km cm (EarthAtm T r h) t = Ok (494 / 1000)) /\
    (q < r -> density km cm (EarthAtm T r h) t = Ok (f (q / (r + h))) /\ ye km cm (EarthAtm T r h) t = Ok (g (q / (r + h)))).
Proof.
  intros km cm x a b e r h Hk Hr Hh H Hx0. unfold make_earthatm in H. destruct (make_table x a b) as [t| |] eqn:Et; cbn [obind] in H; try discriminate. injection H as <-.
  destruct (make_table_inv _ _ _ _ Et) as (Hx & Ha & Hb & Sa & Sb). exists (profile_fun x a), (profile_fun x b).
  pose proof (profile_ok _ _ _ Sa) as Pa. pose proof (profile_ok _ _ _ Sb) as Pb. split; [exact Pa|]. split; [exact Pb|].
  intros T c p i j k l E Hc. injection E as <-. cbv zeta. cbn [density ye]. rewrite atm_r_path by assumption. set (q := path_radius km c r h p).
  assert (Hgen : forall col s air, spline_of x col = Ok s -> profile x col (profile_fun x col) ->
    (q > r -> atm_value t col s air r h q = Ok (air (q - r))) /\ (q < r -> atm_value t col s air r h q = Ok (profile_fun x col (q / (r + h))))).
  { intros cl s air Hs Hp. unfold atm_value. cbv zeta. rewrite Hx. split; intros Hq.
    - rewrite lt_false; [|apply Rmult_le_reg_r with (r + h); [lra|]; unfold first; replace (q / (r + h) * (r + h)) with q by (field; lra); lra].
      rewrite (lt_false q r) by lra. rewrite Bool.andb_false_r, (lt_true r q) by lra. reflexivity.
    - rewrite (lt_true q r) by lra. rewrite Bool.andb_true_r, (lt_false r q) by lra. now apply clamped. }
  split; intros Hq; (split; [rewrite Ha; now apply (Hgen a (s_a t))|rewrite Hb; now apply (Hgen b (s_b t))]).
Qed.
(** Tables give the surface as 1 (body.h 682-690, body.cpp 883-884), but the fraction used is of the radius including the atmosphere: with
    density equal to the table's own radius, the value just at the detector is r/(r+h), not 1. *)
Theorem c24_surface_refuted : forall km cm x b T r h c, 0 < km -> 0 < r -> 0 < h -> -1 <= c <= 1 -> make_table x x b = Ok T -> nth 0 x 0 = 0 -> nth (List.length x - 1) x 0 = 1 ->
  let L := atm_length c (r * km) (h * km) in
  density km cm (EarthAtm T r h) (EarthAtmTrack L 0 L c (r * km) (h * km) L) = Ok (r / (r + h)) /\ r / (r + h) <> 1.
Proof.
  intros km cm x b T r h c Hk Hr Hh Hc Ht H0 H1. destruct (make_table_inv _ _ _ _ Ht) as (Hx & Ha & Hb & Sa & Sb). cbv zeta. cbn [density].
  rewrite atm_r_path by lra. rewrite path_end by lra. unfold atm_value. cbv zeta. rewrite Hx, Ha. unfold first, final. rewrite H0, H1.
  assert (Hi : 0 < / (r + h)) by (apply Rinv_0_lt_compat; lra). assert (Hlt : r / (r + h) < 1).
  { apply Rmult_lt_reg_r with (r + h); [lra|]. replace (r / (r + h) * (r + h)) with r by (field; lra). lra. }
  split; [|lra]. rewrite lt_false by (apply Rmult_le_pos; lra). rewrite (lt_false 1) by lra. cbn [andb]. rewrite (lt_false r r) by lra.
  destruct (spline_of_inv _ _ _ Sa) as (_ & Hn & Hinc & ->). rewrite (spline_line (col x) (col x) (List.length x) 0 1); trivial; [f_equal; ring|]. intros. ring.
Qed.
(** The parameters a trajectory reports (GetTrackParams, 785-789) and serializes are wrong when it was made from the cosine. *)
Definition reported (t : track) : option (R * R) := match t with EarthAtmTrack _ _ _ _ r a _ => Some (r, a) | _ => None end.
Theorem c24_reported : forall km T r h phi t, make_track km (EarthAtm T r h) phi = Some t -> reported t = Some (r * km, h * km).
Proof. intros km T r h phi t H. injection H as <-. reflexivity. Qed.
Theorem c24_reported_cosine_refuted : forall km T r h c t, 0 < km -> h <> 22 -> make_track_cos km (EarthAtm T r h) c = Some t -> reported t <> Some (r * km, h * km).
Proof. intros km T r h c t Hk Hh H. injection H as <-. cbn [reported atm_track_cos]. intros E. injection E as _ E. apply Hh. apply Rmult_eq_reg_r with km; lra. Qed.

(** ** C25 *)
Theorem c25_vacuum : forall km cm t, density km cm Vacuum t = Ok 0 /\ ye km cm Vacuum t = Ok 1.
Proof. intros km cm []; split; reflexivity. Qed.
Theorem c25_constant : forall km cm r y t, density km cm (ConstantDensity r y) t = Ok r /\ ye km cm (ConstantDensity r y) t = Ok y.
Proof. intros km cm r y []; split; reflexivity. Qed.
(** Inside the table the spline, outside it zero (also for the composition). The position is converted to centimetres. *)
Theorem c25_variable : forall km cm x a b e t, 0 < cm -> make_variable x a b = Ok e ->
  exists f g, profile x a f /\ profile x b g /\
  let p := pos t / cm in
  (nth 0 x 0 <= p <= nth (List.length x - 1) x 0 -> density km cm e t = Ok (f p) /\ ye km cm e t = Ok (g p)) /\
  (p < nth 0 x 0 \/ nth (List.length x - 1) x 0 < p -> density km cm e t = Ok 0 /\ ye km cm e t = Ok 0).
Proof.
  intros km cm x a b e t Hc H. unfold make_variable in H. destruct (make_table x a b) as [T| |] eqn:Et; cbn [obind] in H; try discriminate. injection H as <-.
  destruct (make_table_inv _ _ _ _ Et) as (Hx & Ha & Hb & Sa & Sb). exists (profile_fun x a), (profile_fun x b).
  pose proof (profile_ok _ _ _ Sa) as Pa. pose proof (profile_ok _ _ _ Sb) as Pb. split; [exact Pa|]. split; [exact Pb|]. cbv zeta.
  assert (Ed : density km cm (VariableDensity T) t = variable_value cm T (s_a T) (pos t)) by (destruct t; reflexivity).
  assert (Ey : ye km cm (VariableDensity T) t = variable_value cm T (s_b T) (pos t)) by (destruct t; reflexivity).
  rewrite Ed, Ey. unfold variable_value. cbv zeta. rewrite Hx. unfold first, final. split; intros Hp.
  - rewrite !lt_false by lra. cbn [orb]. split; [now apply Pa|now apply Pb].
  - assert (E : (lt (pos t / cm) (nth 0 x 0) || lt (nth (List.length x - 1) x 0) (pos t / cm))%bool = true).
    { apply Bool.orb_true_iff. destruct Hp; [left|right]; now apply lt_true. }
    rewrite E. split; reflexivity.
Qed.
(** Tables that are too short, unordered or of different lengths are refused. *)
Theorem c25_variable_refused : forall x a b, (forall e, make_variable x a b <> Ok e) ->
  make_variable x a b = Throw RuntimeError /\ ~ (List.length a = List.length x /\ List.length b = List.length x /\ (3 <= List.length x)%nat /\ strictly_increasing (fun i => nth i x 0) (List.length x)).
Proof.
  intros x a b H. unfold make_variable, make_table, spline_of in *.
  destruct (Nat.eqb_spec (List.length x) (List.length a)) as [Ea|Ea]; cbn [obind] in *; [|split; [reflexivity|intros (E & _); congruence]].
  destruct (c16_constructor (col x) (col a) (List.length x)) as [C1 C2]. destruct (c16_constructor (col x) (col b) (List.length x)) as [D1 D2].
  destruct (Classical_Prop.classic ((3 <= List.length x)%nat /\ strictly_increasing (col x) (List.length x))) as [Hg|Hg].
  - destruct (C1 Hg) as [sa Hsa]. rewrite Hsa in *. cbn [obind] in *.
    destruct (Nat.eqb_spec (List.length x) (List.length b)) as [Eb|Eb]; cbn [obind] in *; [|split; [reflexivity|intros (_ & E & _); congruence]].
    destruct (D1 Hg) as [sb Hsb]. rewrite Hsb in *. cbn [obind] in *. exfalso. eapply H. reflexivity.
  - rewrite (C2 Hg). cbn [obind]. split; [reflexivity|]. intros (_ & _ & Hn & Hs). apply Hg. split; assumption.
Qed.

(** ** C26 *)
Definition reread (km : R) (e : body) : outcome body := deser_body km (body_name e) (ser_body e).
Definition reread_track (km : R) (t : track) : outcome track := deser_track km (track_name t) (ser_track t).
(** Every medium made from vectors (and with any radius and height for EarthAtm) is read back as it was. *)
Theorem c26_bodies : forall km e x a b r h,
  (e = Vacuum \/ (exists r y, e = ConstantDensity r y) \/ make_variable x a b = Ok e \/ make_earth x a b = Ok e \/ make_sun x a b = Ok e \/ make_sunasnu km x a b = Ok e \/
   (exists T, make_table x a b = Ok T /\ e = EarthAtm T r h)) -> reread km e = Ok e.
Proof.
  intros km e x a b r h [->|[(r' & y & ->)|[H|[H|[H|[H|(T & H & ->)]]]]]]; try reflexivity.
  1-4: unfold make_variable, make_earth, make_sun, make_sunasnu in H; destruct (make_table x a b) as [T| |] eqn:Et; cbn [obind] in H; try discriminate; injection H as <-;
    destruct (make_table_inv _ _ _ _ Et) as (Hx & Ha & Hb & _); unfold reread; cbn [body_name deser_body String.eqb Ascii.eqb Bool.eqb ser_body put_table app].
  1-4: erewrite get_table_ok; [|exact Et|rewrite <- Hx; reflexivity|rewrite <- Hx; reflexivity|rewrite <- Ha; reflexivity|rewrite <- Hb; reflexivity].
  1-4: unfold make_variable, make_earth, make_sun, make_sunasnu; rewrite Et; reflexivity.
  destruct (make_table_inv _ _ _ _ H) as (Hx & Ha & Hb & _). unfold reread. cbn [body_name deser_body String.eqb Ascii.eqb Bool.eqb ser_body put_table app get_num_or lookup get_num obind].
  erewrite get_table_ok; [|exact H|rewrite <- Hx; reflexivity|rewrite <- Hx; reflexivity|rewrite <- Ha; reflexivity|rewrite <- Hb; reflexivity]. rewrite H. reflexivity.
Qed.
(** A SunASnu read from a file changes its radius, so the whole profile is stretched. *)
Theorem c26_sunasnu_refuted : forall km x a b e, 0 < km -> make_sunasnu_file km x a b = Ok e -> exists e', reread km e = Ok e' /\ e' <> e.
Proof.
  intros km x a b e Hk H. unfold make_sunasnu_file in H. destruct (make_table x a b) as [T| |] eqn:Et; cbn [obind] in H; try discriminate. injection H as <-.
  destruct (make_table_inv _ _ _ _ Et) as (Hx & Ha & Hb & _). exists (SunASnu T (sun_radius km)). unfold reread.
  cbn [body_name deser_body String.eqb Ascii.eqb Bool.eqb ser_body put_table app]. split.
  - erewrite get_table_ok; [|exact Et|rewrite <- Hx; reflexivity|rewrite <- Hx; reflexivity|rewrite <- Ha; reflexivity|rewrite <- Hb; reflexivity].
    unfold make_sunasnu. rewrite Et. reflexivity.
  - intros E. injection E as E. unfold sun_radius, sunasnu_file_radius in E. nra.
Qed.
(** Trajectories of the vacuum, of constant and variable density, of the Sun and of the Earth are read back as they were, also reversed. *)
Theorem c26_tracks : forall km t, match t with Rect _ _ _ _ | EarthTrack _ _ _ _ => True | _ => False end ->
  reread_track km t = Ok t /\ reread_track km (reverse t) = Ok (reverse t).
Proof. intros km [k x i e|x i e b| |]; intros []; [destruct k|]; split; reflexivity. Qed.
(** Atmospheric trajectories made from an angle come back with the same positions and densities in every medium. *)
Theorem c26_atm_track : forall km cm phi r h p, exists t', let t := set_x (atm_track phi r h) p in
  reread_track km t = Ok t' /\ pos t' = p /\ ini t' = ini t /\ fin t' = fin t /\
  forall e y, density km cm e (set_x t' y) = density km cm e (set_x t y) /\ ye km cm e (set_x t' y) = ye km cm e (set_x t y).
Proof.
  intros km cm phi r h p. eexists. cbv zeta. unfold reread_track. split; [reflexivity|]. repeat split; destruct e; reflexivity.
Qed.
(** But they come back with the default radius and height as parameters, so a second round trip changes their length; so does the first, for
    trajectories made from a cosine. *)
Theorem c26_atm_track_refuted : forall km r h, 0 < km -> 0 < r -> 0 < h ->
  exists t', reread_track km (atm_track_cos km 1 (r * km) (h * km)) = Ok t' /\ fin (atm_track_cos km 1 (r * km) (h * km)) = h * km /\ fin t' = 22 * km.
Proof.
  intros km r h Hk Hr Hh. eexists. split; [reflexivity|]. cbn [atm_track_cos fin set_x].
  rewrite !atm_length_km by lra. unfold S_len. replace ((r + h) * (r + h) - r * r * (1 - 1 * 1)) with ((r + h) * (r + h)) by ring.
  replace ((6371 + 22) * (6371 + 22) - 6371 * 6371 * (1 - 1 * 1)) with ((6371 + 22) * (6371 + 22)) by ring. rewrite !sqrt_square by lra. split; ring.
Qed.
(** A reversed trajectory begins where the other ends, and sees the same matter at the same place. *)
Theorem c26_reverse : forall km cm b t, ini (reverse t) = fin t /\ fin (reverse t) = ini t /\ pos (reverse t) = pos t /\ reverse (reverse t) = t /\
  density km cm b (reverse t) = density km cm b t /\ ye km cm b (reverse t) = ye km cm b t.
Proof. intros km cm b t. destruct t, b; repeat split. Qed.
Print Assumptions c26_reverse.
(** A trajectory given by its baseline starts at 0, ends at the baseline, and sees the same matter at both ends. *)
Theorem c23_whole : forall km cm t base, 0 < km -> let tr := earth_track base in ini tr = 0 /\ pos tr = 0 /\ fin tr = base /\
  density km cm (Earth t) (set_x tr (fin tr)) = density km cm (Earth t) tr /\ ye km cm (Earth t) (set_x tr (fin tr)) = ye km cm (Earth t) tr.
Proof.
  intros km cm t base K. cbv zeta. unfold earth_track. cbn [set_x fin ini pos]. repeat split.
  - replace base with (base - 0) at 1 by ring. now apply c23_symmetric.
  - replace base with (base - 0) at 1 by ring. now apply c23_symmetric_ye.
Qed.
Print Assumptions c23_whole.
(** A group without one of the numbers of a trajectory is refused. *)
Theorem c26_track_missing : forall km name g, In name ["VacuumTrack"; "ConstantDensityTrack"; "VariableDensityTrack"; "SunTrack"; "EarthTrack"; "SunASnuTrack"]%string ->
  (exists n, In n (if String.eqb name "EarthTrack" then ["x"; "xini"; "xend"; "baseline"] else ["x"; "xini"; "xend"])%string /\ forall v, lookup n g <> Some (SNum v)) ->
  deser_track km name g = Throw RuntimeError.
Proof.
  intros km name g Hn (n & Hin & H).
  assert (G : get_num g n = Throw RuntimeError) by (unfold get_num; destruct (lookup n g) as [[]|]; try reflexivity; exfalso; now apply (H v)).
  assert (All : forall n, (exists v, get_num g n = Ok v) \/ get_num g n = Throw RuntimeError) by (intros k; unfold get_num; destruct (lookup k g) as [[]|]; eauto).
  cbn [In] in Hn. repeat (destruct Hn as [<-|Hn]; [unfold deser_track, deser_rect; cbn [String.eqb Ascii.eqb Bool.eqb] in *; cbn [In] in Hin;
    destruct (All "x"%string) as [[? E1]|E1]; rewrite E1; cbn [obind]; [|reflexivity];
    destruct (All "xini"%string) as [[? E2]|E2]; rewrite E2; cbn [obind]; [|reflexivity];
    destruct (All "xend"%string) as [[? E3]|E3]; rewrite E3; cbn [obind]; [|reflexivity];
    try (destruct (All "baseline"%string) as [[? E4]|E4]; rewrite E4; cbn [obind]; [|reflexivity]);
    repeat (destruct Hin as [<-|Hin]; [congruence|]); tauto|]). tauto.
Qed.
Print Assumptions c26_track_missing.
Example c26_track_missing_case : deser_track 1 "EarthTrack"%string [("x", SNum 0); ("xini", SNum 0); ("xend", SNum 1)]%string = Throw RuntimeError /\
  deser_track 1 "EarthTrack"%string [("x", SNum 0); ("xini", SNum 0); ("xend", SNum 1); ("baseline", SNum 1)]%string = Ok (earth_track 1).
Proof. split; reflexivity. Qed.
(** A file whose table is longer than its attribute "arraysize" says is written past the end of a vector. *)
Theorem c26_long_array_refuted : forall km name nx g k l, In (name, nx) [("VariableDensity", "x_arr"); ("Earth", "earth_radius"); ("Sun", "sun_radius"); ("SunASnu", "sun_radius")]%string ->
  lookup "arraysize"%string g = Some (SUInt k) -> lookup nx g = Some (SArr l) -> (k < List.length l)%nat -> deser_body km name g = UB.
Proof.
  intros km name nx g k l H Hk Hl L. apply Nat.leb_gt in L.
  cbn [In] in H. repeat (destruct H as [H|H]; [injection H as <- <-; unfold deser_body, get_table, get_uint, get_arr; cbn [String.eqb Ascii.eqb Bool.eqb]; rewrite Hk; cbn [obind]; rewrite Hl, L; reflexivity|]). tauto.
Qed.
Print Assumptions c26_long_array_refuted.
(** A reversed atmospheric trajectory is read back forwards. *)
Theorem c26_atm_reversed_refuted : forall km phi r h, 0 < km -> 0 < r -> 0 < h ->
  let t := reverse (atm_track phi (r * km) (h * km)) in
  exists t', reread_track km t = Ok t' /\ ini t = fin t' /\ fin t = ini t' /\ (cos phi = 1 -> ini t <> ini t').
Proof.
  intros km phi r h Hk Hr Hh. cbv zeta. eexists. split; [reflexivity|]. unfold atm_track. cbv zeta. cbn [fin ini reverse set_x atm_track_cos]. repeat split.
  intros ->. rewrite atm_length_km by lra. unfold S_len. replace ((r + h) * (r + h) - r * r * (1 - 1 * 1)) with ((r + h) * (r + h)) by ring. rewrite sqrt_square by lra.
  assert (0 < h * km) by (apply Rmult_lt_0_compat; lra). lra.
Qed.
(** A SunASnu trajectory loses its impact parameter: its end position is read as one. Here with the impact parameter 9/10 of the radius. *)
Theorem c26_sunasnu_track_refuted : forall km x i, 0 < km ->
  let b := 9 / 10 * (694439 * km) in
  exists t', reread_track km (sunasnu_track km x i b) = Ok t' /\ t' = sunasnu_track km x i (fin (sunasnu_track km x i b)) /\ fin t' <> fin (sunasnu_track km x i b).
Proof.
  intros km x i Hk. cbv zeta. eexists. split; [reflexivity|]. split; [reflexivity|]. cbn [sunasnu_track fin]. unfold sunasnu_file_radius, sqr. set (q := 694439 * km).
  assert (Hq : 0 < q) by (unfold q; lra).
  assert (Hs : 4 * (q * q - 9 / 10 * q * (9 / 10 * q)) = 76 / 100 * (q * q)) by field.
  assert (H1 : (2 * sqrt (q * q - 9 / 10 * q * (9 / 10 * q))) * (2 * sqrt (q * q - 9 / 10 * q * (9 / 10 * q))) = 76 / 100 * (q * q)).
  { rewrite <- Hs. replace (2 * sqrt (q * q - 9 / 10 * q * (9 / 10 * q)) * (2 * sqrt (q * q - 9 / 10 * q * (9 / 10 * q)))) with
      (4 * (sqrt (q * q - 9 / 10 * q * (9 / 10 * q)) * sqrt (q * q - 9 / 10 * q * (9 / 10 * q)))) by ring. rewrite sqrt_sqrt; nra. }
  intros E. set (v := 2 * sqrt (q * q - 9 / 10 * q * (9 / 10 * q))) in *. assert (H2 : v * v = 4 * (q * q - v * v)).
  { rewrite <- E at 1 2. replace (2 * sqrt (q * q - v * v) * (2 * sqrt (q * q - v * v))) with (4 * (sqrt (q * q - v * v) * sqrt (q * q - v * v))) by ring. rewrite sqrt_sqrt; nra. }
  nra.
Qed.

(** ** C27 *)
Theorem c27_first_wins : forall (F : Type) l1 n (f : F) l2, ~ In n (map fst l1) -> resolve (register_all None (l1 ++ (n, f) :: l2)) n = Ok f.
Proof.
  intros F l1 n f l2 H. rewrite resolve_known by (apply register_all_some; right; destruct l1; discriminate). rewrite known_all. cbn [known].
  rewrite lookup_app, (lookup_absent _ _ H), lookup_cons, String.eqb_refl. reflexivity.
Qed.
Theorem c27_unknown : forall (F : Type) l n, l <> [] -> ~ In n (map fst (l : list (string * F))) -> resolve (register_all None l) n = Throw RuntimeError.
Proof.
  intros F l n Hl H. rewrite resolve_known by (apply register_all_some; now right). rewrite known_all. cbn [known]. now rewrite lookup_absent.
Qed.
(** Later registrations change no name that is known already. *)
Theorem c27_stable : forall (F : Type) (r : @registry F) l n f, resolve r n = Ok f -> resolve (register_all r l) n = Ok f.
Proof.
  intros F r l n f H. destruct r as [m|]; [|discriminate]. rewrite resolve_known by (apply register_all_some; left; discriminate). rewrite known_all. cbn [known resolve] in *.
  destruct (lookup n m); [exact H|discriminate].
Qed.
(** Before anything is registered the lookup is undefined (a null pointer), not an exception. *)
Theorem c27_empty_refuted : forall (F : Type) n, resolve (None : @registry F) n = UB.
Proof. reflexivity. Qed.
(** The registrations of body.cpp 940-946. *)
Definition builtin (km : R) : list (string * (sgroup -> outcome body)) :=
  map (fun n => (n, deser_body km n)) ["Vacuum"; "ConstantDensity"; "VariableDensity"; "Earth"; "EarthAtm"; "Sun"; "SunASnu"]%string.
Theorem c27_builtin : forall km later e, exists d, resolve (register_all (register_all None (builtin km)) later) (body_name e) = Ok d /\ d (ser_body e) = reread km e.
Proof. intros km later e. exists (deser_body km (body_name e)). split; [|reflexivity]. apply c27_stable. destruct e; reflexivity. Qed.

(** ** C64 *)
(** The Sun seen from its centre. *)
Definition solar (x y : list R) (f : R -> R) (v q : R) : Prop :=
  (q <= nth (List.length x - 1) x 0 -> v = f q) /\ (nth (List.length x - 1) x 0 < q -> v = 0).
Theorem c64_sun : forall km cm x a b e, 0 < km -> make_sun x a b = Ok e ->
  exists f g, profile x a f /\ profile x b g /\
  forall t, exists v w, density km cm e t = Ok v /\ ye km cm e t = Ok (/ 2 * (1 + w)) /\ solar x a f v (pos t / (695980 * km)) /\ solar x b g w (pos t / (695980 * km)).
Proof.
  intros km cm x a b e Hk H. unfold make_sun in H. destruct (make_table x a b) as [T| |] eqn:Et; cbn [obind] in H; try discriminate. injection H as <-.
  destruct (make_table_inv _ _ _ _ Et) as (Hx & Ha & Hb & Sa & Sb). exists (profile_fun x a), (profile_fun x b).
  pose proof (profile_ok _ _ _ Sa) as Pa. pose proof (profile_ok _ _ _ Sb) as Pb. split; [exact Pa|]. split; [exact Pb|]. intros t.
  assert (Ed : density km cm (Sun T) t = sun_value T (t_a T) (s_a T) (pos t / sun_radius km)) by (destruct t; reflexivity).
  assert (Ey : ye km cm (Sun T) t = obind (sun_value T (t_b T) (s_b T) (pos t / sun_radius km)) (fun v => Ok (/ 2 * (1 + v)))) by (destruct t; reflexivity).
  rewrite Ed, Ey. fold (sun_radius km). set (q := pos t / sun_radius km).
  assert (G : forall c s, spline_of x c = Ok s -> profile x c (profile_fun x c) -> exists v, sun_value T c s q = Ok v /\ solar x c (profile_fun x c) v q).
  { intros c s Hs Hp. unfold sun_value, solar. rewrite Hx. pose proof (first_final x) as Hff. destruct (spline_of_inv _ _ _ Hs) as (_ & Hn & Hi & _). specialize (Hff Hn Hi).
    fold (final x). destruct (lt_cases q (first x)) as [[-> Hq]|[-> Hq]].
    - eexists. split; [reflexivity|]. split; intros Hq'; [symmetry; apply (prof_below _ _ _ Hp); apply Rlt_le, Hq|lra].
    - destruct (lt_cases (final x) q) as [[-> Hq2]|[-> Hq2]].
      + exists 0. split; [reflexivity|]. split; intros; [lra|reflexivity].
      + exists (profile_fun x c q). split; [apply (prof_spline _ _ _ Hp); [exact Hs|split; [exact Hq|exact Hq2]]|]. split; intros; [reflexivity|lra]. }
  destruct (G a (s_a T) Sa Pa) as (v & Hv & Sv). destruct (G b (s_b T) Sb Pb) as (w & Hw & Sw). exists v, w. rewrite Ha, Hb, Hv, Hw. auto.
Qed.
(** The radius used by SunASnu is the distance to the centre of the point on a chord at distance b from it; the chord of a trajectory is that of
    a Sun of 694439 km, the radius of a SunASnu read from a file. *)
Lemma sunasnu_sq R b x : 0 < R -> 0 <= b <= R -> sqr R + sqr x - 2 * x * sqrt (sqr R - sqr b) = (x - sqrt (R * R - b * b)) ^ 2 + b ^ 2.
Proof.
  intros HR Hb. unfold sqr. assert (H : sqrt (R * R - b * b) * sqrt (R * R - b * b) = R * R - b * b) by (apply sqrt_sqrt; nra). nra.
Qed.
Theorem c64_chord : forall km b x i p, 0 < km -> 0 <= b <= 694439 * km ->
  let t := sunasnu_track km x i b in let R := 694439 * km in let rad p := sunasnu_r R b p in
  rad p = sqrt ((p - fin t / 2) ^ 2 + b ^ 2) / R /\ rad 0 = 1 /\ rad (fin t) = 1 /\ rad (fin t / 2) = b / R /\ (0 <= p <= fin t -> b / R <= rad p <= 1).
Proof.
  intros km b x i p Hk Hb. cbv zeta. cbn [sunasnu_track fin]. unfold sunasnu_file_radius. set (R := 694439 * km) in *. assert (HR : 0 < R) by (unfold R; lra).
  assert (Hs : sqrt (R * R - b * b) * sqrt (R * R - b * b) = R * R - b * b) by (apply sqrt_sqrt; nra). assert (Hs0 := sqrt_pos (R * R - b * b)).
  assert (Hr : forall y, sunasnu_r R b y = sqrt ((y - sqrt (R * R - b * b)) ^ 2 + b ^ 2) / R) by (intros y; unfold sunasnu_r; now rewrite sunasnu_sq).
  rewrite !Hr. unfold sqr. set (s := sqrt (R * R - b * b)) in *. replace (2 * s / 2) with s by field.
  assert (Hi : 0 < / R) by now apply Rinv_0_lt_compat. repeat split.
  - replace ((0 - s) ^ 2 + b ^ 2) with (R * R) by nra. rewrite sqrt_square by lra. field. lra.
  - replace ((2 * s - s) ^ 2 + b ^ 2) with (R * R) by nra. rewrite sqrt_square by lra. field. lra.
  - replace ((s - s) ^ 2 + b ^ 2) with (b * b) by ring. rewrite sqrt_square by lra. reflexivity.
  - apply Rmult_le_compat_r; [lra|]. apply Rle_trans with (sqrt (b * b)); [rewrite sqrt_square; lra|]. apply sqrt_le_1_alt. pose proof (pow2_ge_0 (p - s)). nra.
  - apply Rle_trans with (sqrt (R * R) / R); [|rewrite sqrt_square by lra; right; field; lra]. apply Rmult_le_compat_r; [lra|]. apply sqrt_le_1_alt.
    assert (0 <= p * (2 * s - p)) by (apply Rmult_le_pos; lra). nra.
Qed.
(** A SunASnu made from vectors (or deserialized) is larger than its trajectories: they end inside it. *)
Theorem c64_vector_sun_refuted : forall km b x i, 0 < km -> 0 <= b < 694439 * km -> sunasnu_r (sun_radius km) b (fin (sunasnu_track km x i b)) < 1.
Proof.
  intros km b x i Hk Hb. cbn [sunasnu_track fin]. unfold sun_radius, sunasnu_file_radius. set (R := 695980 * km). set (Q := 694439 * km) in *.
  assert (HQ : 0 < Q) by (unfold Q; lra). assert (HR : Q < R) by (unfold Q, R; lra). unfold sunasnu_r. rewrite sunasnu_sq by lra. unfold sqr.
  set (s := sqrt (Q * Q - b * b)). set (u := sqrt (R * R - b * b)).
  assert (Hs : s * s = Q * Q - b * b) by (apply sqrt_sqrt; nra). assert (Hu : u * u = R * R - b * b) by (apply sqrt_sqrt; nra).
  assert (Hs0 : 0 < s) by (apply sqrt_lt_R0; nra). assert (Hsu : s < u) by (apply sqrt_lt_1; nra).
  apply Rmult_lt_reg_r with R; [lra|]. unfold Rdiv. rewrite Rmult_assoc, Rinv_l, Rmult_1_r, Rmult_1_l by lra.
  apply Rlt_le_trans with (sqrt (R * R)); [|rewrite sqrt_square; lra]. apply sqrt_lt_1_alt. split; [pose proof (pow2_ge_0 (2 * s - u)); nra|]. nra.
Qed.

(** ** Cases *)
(** A table of three rows, with a density equal to the radius and a constant composition. *)
Definition demo_x : list R := [0; / 2; 1].
Definition demo_ye : list R := [/ 2; / 2; / 2].
Lemma demo_table : exists T, make_table demo_x demo_x demo_ye = Ok T.
Proof.
  unfold make_table, spline_of. cbn [List.length demo_x demo_ye Nat.eqb].
  assert (Hi : increasing (col demo_x) 3). { intros [|[|j]] Hj; cbn; try lra. lia. }
  rewrite !akima_ok by (lia || exact Hi). cbn [obind]. eexists. reflexivity.
Qed.
Example c23_case : exists e, make_earth demo_x demo_x demo_ye = Ok e /\ 0 <= 2 * 6371 * 1 <= 2 * 6371 * 1 /\
  exists f, profile demo_x demo_x f /\ density 1 1 e (EarthTrack 6371 0 (2 * 6371) (2 * 6371)) = Ok (f 0) /\ f 0 = 0.
Proof.
  destruct demo_table as [T HT]. exists (Earth T). assert (E : make_earth demo_x demo_x demo_ye = Ok (Earth T)) by (unfold make_earth; rewrite HT; reflexivity).
  split; [exact E|]. split; [lra|]. destruct (c23_profile 1 1 _ _ _ _ Rlt_0_1 E) as (f & g & Pf & Pg & H). exists f. split; [exact Pf|].
  destruct (H (2 * 6371) 6371 0 (2 * 6371) ltac:(lra) ltac:(lra)) as (_ & Hd & _). split.
  - rewrite Hd. f_equal. f_equal. replace (((6371 - 2 * 6371 / 2) / 1) ^ 2 + (6371 ^ 2 - (2 * 6371 / 2 / 1) ^ 2)) with 0 by field. rewrite sqrt_0. field.
  - exact (prof_nodes _ _ _ Pf 0%nat ltac:(cbn; lia)).
Qed.
Example c24_case : exists T t, make_table demo_x demo_x demo_ye = Ok T /\ make_track 1 (EarthAtm T 6371 22) 0 = Some t /\ fin t = 22 /\ nth 0 demo_x 0 * (6371 + 22) <= 6371.
Proof.
  destruct demo_table as [T HT]. exists T, (atm_track 0 (6371 * 1) (22 * 1)). repeat split; trivial; [|cbn; lra].
  unfold atm_track. cbv zeta. cbn [fin]. rewrite cos_0, atm_length_km by lra. unfold S_len.
  replace ((6371 + 22) * (6371 + 22) - 6371 * 6371 * (1 - 1 * 1)) with ((6371 + 22) * (6371 + 22)) by ring. rewrite sqrt_square by lra. ring.
Qed.
Example c24_surface_case : exists T, make_table demo_x demo_x demo_ye = Ok T /\ nth 0 demo_x 0 = 0 /\ nth (List.length demo_x - 1) demo_x 0 = 1.
Proof. destruct demo_table as [T HT]. exists T. split; [exact HT|]. split; reflexivity. Qed.
Example c25_case : exists e, make_variable demo_x demo_x demo_ye = Ok e /\ density 1 1 e (Rect KVariableDensity 2 0 2) = Ok 0.
Proof.
  destruct demo_table as [T HT]. exists (VariableDensity T). assert (E : make_variable demo_x demo_x demo_ye = Ok (VariableDensity T)) by (unfold make_variable; rewrite HT; reflexivity).
  split; [exact E|]. destruct (c25_variable 1 1 _ _ _ _ (Rect KVariableDensity 2 0 2) Rlt_0_1 E) as (f & g & _ & _ & _ & H). apply H. right. cbn. lra.
Qed.
Example c25_refused_case : forall e, make_variable [0; 1] [0; 1] [0; 1] <> Ok e.
Proof. intros e. unfold make_variable, make_table, spline_of. cbn [List.length Nat.eqb]. unfold akima. cbn [Nat.ltb Nat.leb obind]. discriminate. Qed.
Example c26_case : exists e, make_sunasnu_file 1 demo_x demo_x demo_ye = Ok e.
Proof. destruct demo_table as [T HT]. exists (SunASnu T (sunasnu_file_radius 1)). unfold make_sunasnu_file. rewrite HT. reflexivity. Qed.
Example c27_case : resolve (register_all None [("a", 1%nat); ("b", 2%nat); ("a", 3%nat)]%string) "a"%string = Ok 1%nat /\
  resolve (register_all None [("a", 1%nat); ("b", 2%nat); ("a", 3%nat)]%string) "c"%string = Throw RuntimeError.
Proof. split; reflexivity. Qed.
Example c64_case : sunasnu_r (694439 * 1) 0 (694439 * 1) = 0.
Proof.
  destruct (c64_chord 1 0 0 0 0 Rlt_0_1 ltac:(lra)) as (_ & _ & _ & H & _). revert H. cbn [sunasnu_track fin]. unfold sunasnu_file_radius, sqr.
  replace (694439 * 1 * (694439 * 1) - 0 * 0) with (694439 * 694439) by ring. rewrite sqrt_square by lra. replace (2 * 694439 / 2) with (694439 * 1) by field. intros ->. field.
Qed.

Print Assumptions c23_profile. Print Assumptions c23_symmetric. Print Assumptions c23_symmetric_ye. Print Assumptions c23_too_long.
Print Assumptions c24_geometry. Print Assumptions c24_cosine. Print Assumptions c24_profile. Print Assumptions c24_surface_refuted. Print Assumptions c24_reported.
Print Assumptions c24_reported_cosine_refuted. Print Assumptions c25_vacuum. Print Assumptions c25_constant. Print Assumptions c25_variable. Print Assumptions c25_variable_refused.
Print Assumptions c26_bodies. Print Assumptions c26_sunasnu_refuted. Print Assumptions c26_tracks. Print Assumptions c26_atm_track. Print Assumptions c26_atm_track_refuted.
Print Assumptions c26_atm_reversed_refuted. Print Assumptions c26_sunasnu_track_refuted. Print Assumptions c27_first_wins. Print Assumptions c27_unknown. Print Assumptions c27_stable.
Print Assumptions c27_empty_refuted. Print Assumptions c27_builtin. Print Assumptions c64_sun. Print Assumptions c64_chord. Print Assumptions c64_vector_sun_refuted.
