(** Model of include/nuSQuIDS/body.h and src/body.cpp: media and trajectories. Doubles are reals. [km] and [cm] are the unit constants of
    squids::Const, a parameter. Splines are those of AkimaModel. A static_cast to the wrong trajectory type is undefined. *)
From Coq Require Import List Arith Reals String.
From Verif Require Import Err AkimaModel H5Model.
Import ListNotations.
Local Open Scope R_scope.

(** Tables: positions and two columns (density and composition), with their splines. AkimaSpline(vector,vector), tools.h 171-173, refuses
    different lengths. *)
Definition col (l : list R) (i : nat) : R := nth i l 0.
Definition spline_of (x y : list R) : outcome spline :=
  if Nat.eqb (List.length x) (List.length y) then akima (col x) (col y) (List.length x) else Throw RuntimeError.
Record table := Table { t_x : list R; t_a : list R; t_b : list R; s_a : spline; s_b : spline }.
Definition make_table (x a b : list R) : outcome table := obind (spline_of x a) (fun sa => obind (spline_of x b) (fun sb => Ok (Table x a b sa sb))).
Definition first (l : list R) : R := nth 0 l 0.
Definition final (l : list R) : R := nth (List.length l - 1) l 0.

(** Media. The radii of Earth (308, 341) and EarthAtm are in km; those of the Sun (453, 477) and SunASnu (559, 582) are in natural units. *)
Inductive body :=
| Vacuum                                              (* h 128-158 *)
| ConstantDensity (rho ye : R)                        (* h 167-213 *)
| VariableDensity (t : table)                         (* h 222-291 *)
| Earth (t : table)                                   (* h 302-439 *)
| Sun (t : table)                                     (* h 448-545 *)
| SunASnu (t : table) (radius : R)                    (* h 554-671 *)
| EarthAtm (t : table) (radius atm_height : R).       (* h 682-903; earth_with_atm_radius is radius+atm_height, 852, 887, 902 *)

(** Trajectories: current, initial and final position, h 70-113, and what each type adds. *)
Inductive kind := KVacuum | KConstantDensity | KVariableDensity | KSun.
Inductive track :=
| Rect (k : kind) (x xini xend : R)
| EarthTrack (x xini xend baseline : R)
| SunASnuTrack (x xini xend b_impact : R)
| EarthAtmTrack (x xini xend cosphi earth_radius atmheight L : R).
Definition pos (t : track) : R := match t with Rect _ x _ _ | EarthTrack x _ _ _ | SunASnuTrack x _ _ _ | EarthAtmTrack x _ _ _ _ _ _ => x end.
Definition ini (t : track) : R := match t with Rect _ _ i _ | EarthTrack _ i _ _ | SunASnuTrack _ i _ _ | EarthAtmTrack _ i _ _ _ _ _ => i end.
Definition fin (t : track) : R := match t with Rect _ _ _ e | EarthTrack _ _ e _ | SunASnuTrack _ _ e _ | EarthAtmTrack _ _ e _ _ _ _ => e end.
(** SetX and ReverseTrack, h 90-101 *)
Definition set_x (t : track) (y : R) : track :=
  match t with Rect k _ i e => Rect k y i e | EarthTrack _ i e b => EarthTrack y i e b | SunASnuTrack _ i e b => SunASnuTrack y i e b
             | EarthAtmTrack _ i e c r a L => EarthAtmTrack y i e c r a L end.
Definition reverse (t : track) : track :=
  match t with Rect k x i e => Rect k x e i | EarthTrack x i e b => EarthTrack x e i b | SunASnuTrack x i e b => SunASnuTrack x e i b
             | EarthAtmTrack x i e c r a L => EarthAtmTrack x e i c r a L end.

Section Units.
Variables km cm : R.

(** Clamped lookups: Earth 383-391, EarthAtm below. *)
Definition sqr (x : R) : R := x * x.
Definition lt (x y : R) : bool := if Rlt_dec x y then true else false.
Definition earth_km : R := 6371.
(** The radius of Earth::density and Earth::ye, 373-381. *)
Definition earth_r (baseline x : R) : outcome R :=
  let xkm := x / km in
  let r2 := sqr earth_km + sqr xkm - (baseline / km) * xkm in
  if lt 0 r2 then Ok (sqrt r2) else if lt (Rabs r2) (/ 10 ^ 6) then Ok 0 else Throw RuntimeError.
Definition earth_value (t : table) (c : list R) (s : spline) (baseline x : R) : outcome R :=
  obind (earth_r baseline x) (fun r =>
    if lt (r / earth_km) (first (t_x t)) then Ok (first c)
    else if lt (final (t_x t)) (r / earth_km) then Ok (final c)
    else spline_eval s (r / earth_km)).
(** VariableDensity 260-277: the table inside, zero outside. *)
Definition variable_value (t : table) (s : spline) (x0 : R) : outcome R :=
  let x := x0 / cm in if orb (lt x (first (t_x t))) (lt (final (t_x t)) x) then Ok 0 else spline_eval s x.
(** Sun::rdensity, rxh 498-518, 631-651. *)
Definition sun_value (t : table) (c : list R) (s : spline) (r : R) : outcome R :=
  if lt r (first (t_x t)) then Ok (first c) else if lt (final (t_x t)) r then Ok 0 else spline_eval s r.
Definition sun_radius : R := 695980 * km.
Definition sunasnu_file_radius : R := 694439 * km.
(** SunASnu 659, 669 *)
Definition sunasnu_r (radius b x : R) : R := sqrt (sqr radius + sqr x - 2 * x * sqrt (sqr radius - sqr b)) / radius.
(** EarthAtm 802-806, 828-832 *)
Definition atm_r (radius height cosphi L x : R) : R :=
  let xkm := x / km in
  let sinsqphi := 1 - cosphi * cosphi in
  let big := radius + height in
  let dL := sqrt (sqr big - radius * radius * sinsqphi) + radius * cosphi in
  let r2 := sqr big + sqr xkm - (L / km + dL) * xkm in
  if lt 0 r2 then sqrt r2 else 0.
(** EarthAtm 808-822, 834-845; [air] is the value above the surface. *)
Definition atm_value (t : table) (c : list R) (s : spline) (air : R -> R) (radius height r : R) : outcome R :=
  let rel := r / (radius + height) in
  if lt rel (first (t_x t)) then Ok (first c)
  else if andb (lt (final (t_x t)) rel) (lt r radius) then Ok (final c)
  else if lt radius r then Ok (air (r - radius))
  else spline_eval s rel.
Definition air_density (h : R) : R := 12 / 10000 * exp (- h / (7594 / 1000)).
Definition air_ye (h : R) : R := 494 / 1000.

Definition density (b : body) (t : track) : outcome R :=
  match b, t with
  | Vacuum, _ => Ok 0
  | ConstantDensity rho _, _ => Ok rho
  | VariableDensity T, _ => variable_value T (s_a T) (pos t)
  | Earth T, EarthTrack x _ _ base => earth_value T (t_a T) (s_a T) base x
  | Sun T, _ => sun_value T (t_a T) (s_a T) (pos t / sun_radius)
  | SunASnu T radius, SunASnuTrack x _ _ b => sun_value T (t_a T) (s_a T) (sunasnu_r radius b x)
  | EarthAtm T radius height, EarthAtmTrack x _ _ cosphi _ _ L => atm_value T (t_a T) (s_a T) air_density radius height (atm_r radius height cosphi L x)
  | _, _ => UB
  end.
Definition ye (b : body) (t : track) : outcome R :=
  match b, t with
  | Vacuum, _ => Ok 1
  | ConstantDensity _ y, _ => Ok y
  | VariableDensity T, _ => variable_value T (s_b T) (pos t)
  | Earth T, EarthTrack x _ _ base => earth_value T (t_b T) (s_b T) base x
  | Sun T, _ => obind (sun_value T (t_b T) (s_b T) (pos t / sun_radius)) (fun v => Ok (/ 2 * (1 + v)))
  | SunASnu T radius, SunASnuTrack x _ _ b => obind (sun_value T (t_b T) (s_b T) (sunasnu_r radius b x)) (fun v => Ok (/ 2 * (1 + v)))
  | EarthAtm T radius height, EarthAtmTrack x _ _ cosphi _ _ L => atm_value T (t_b T) (s_b T) air_ye radius height (atm_r radius height cosphi L x)
  | _, _ => UB
  end.

(** Constructors from vectors: 223, 335, 474, 579, 879. From files the radius of SunASnu differs (559). *)
Definition make_variable (x a b : list R) : outcome body := obind (make_table x a b) (fun t => Ok (VariableDensity t)).
Definition make_earth (x a b : list R) : outcome body := obind (make_table x a b) (fun t => Ok (Earth t)).
Definition make_sun (x a b : list R) : outcome body := obind (make_table x a b) (fun t => Ok (Sun t)).
Definition make_sunasnu (x a b : list R) : outcome body := obind (make_table x a b) (fun t => Ok (SunASnu t sun_radius)).
Definition make_sunasnu_file (x a b : list R) : outcome body := obind (make_table x a b) (fun t => Ok (SunASnu t sunasnu_file_radius)).
Definition make_earthatm (x a b : list R) : outcome body := obind (make_table x a b) (fun t => Ok (EarthAtm t 6371 22)).
(** SetAtmosphereHeight 900-903 *)
Definition set_height (b : body) (h : R) : body := match b with EarthAtm t r _ => EarthAtm t r h | _ => b end.

(** Trajectory constructors. Earth::Track h 390-403; SunASnu::Track 587-593; EarthAtm::Track 686-698. *)
Definition earth_track (baseline : R) : track := EarthTrack 0 0 baseline baseline.
Definition sunasnu_track (x xini b : R) : track := SunASnuTrack x xini (2 * sqrt (sqr sunasnu_file_radius - sqr b)) b.
Definition atm_length (cosphi r h : R) : R := sqrt (sqr (r + h) - r * r * (1 - cosphi * cosphi)) - r * cosphi.
Definition atm_track (phi r h : R) : track := let c := cos phi in EarthAtmTrack 0 0 (atm_length c r h) c r h (atm_length c r h).
(** MakeWithCosine 770-783 and the private constructor it uses, 767-768: radius and height are not stored. *)
Definition atm_track_cos (c r h : R) : track := EarthAtmTrack 0 0 (atm_length c r h) c (6371 * km) (22 * km) (atm_length c r h).
(** MakeTrack, MakeTrackWithCosine, 791-797 *)
Definition make_track (b : body) (phi : R) : option track := match b with EarthAtm _ r h => Some (atm_track phi (r * km) (h * km)) | _ => None end.
Definition make_track_cos (b : body) (c : R) : option track := match b with EarthAtm _ r h => Some (atm_track_cos c (r * km) (h * km)) | _ => None end.

(** ** Serialization *)
Inductive sval := SStr (s : string) | SNum (v : R) | SUInt (n : nat) | SArr (l : list R).
Definition sgroup := list (string * sval).
Definition get_num (g : sgroup) (n : string) : outcome R := match lookup n g with Some (SNum v) => Ok v | _ => Throw RuntimeError end.
Definition get_uint (g : sgroup) (n : string) : outcome nat := match lookup n g with Some (SUInt v) => Ok v | _ => Throw RuntimeError end.
(** H5LTread_dataset_double into a vector of [k] elements: writing past its end is undefined; a missing dataset leaves zeros. *)
Definition get_arr (g : sgroup) (n : string) (k : nat) : outcome (list R) :=
  match lookup n g with
  | Some (SArr l) => if Nat.leb (List.length l) k then Ok (l ++ repeat 0 (k - List.length l)) else UB
  | _ => Ok (repeat 0 k)
  end.
Local Open Scope string_scope.
Local Open Scope list_scope.
Definition put_table (g : sgroup) (nx na nb : string) (t : table) : sgroup :=
  g ++ [("arraysize", SUInt (List.length (t_x t))); (nx, SArr (t_x t)); (na, SArr (t_a t)); (nb, SArr (t_b t))].
Definition ser_body (b : body) : sgroup :=
  match b with
  | Vacuum => [("name", SStr "Vacuum")]                                                                                    (* 138-140 *)
  | ConstantDensity r y => [("name", SStr "ConstantDensity"); ("constant_density", SNum r); ("constant_ye", SNum y)]         (* 175-179 *)
  | VariableDensity t => put_table [("name", SStr "VariableDensity")] "x_arr" "density_arr" "ye_arr" t                       (* 240-247 *)
  | Earth t => put_table [("name", SStr "Earth")] "earth_radius" "earth_density" "earth_ye" t                                (* 352-359 *)
  | Sun t => put_table [("name", SStr "Sun")] "sun_radius" "sun_density" "sun_xh" t                                          (* 481-488 *)
  | SunASnu t _ => put_table [("name", SStr "SunASnu")] "sun_radius" "sun_density" "sun_xh" t                                (* 609-616 *)
  | EarthAtm t r h => put_table [("name", SStr "EarthAtm")] "earth_radius" "earth_density" "earth_ye" t                      (* 736-745 *)
                      ++ [("radius", SNum r); ("atm_height", SNum h)]
  end.
Definition get_table (g : sgroup) (nx na nb : string) (make : list R -> list R -> list R -> outcome body) : outcome body :=
  obind (get_uint g "arraysize") (fun k => obind (get_arr g nx k) (fun x => obind (get_arr g na k) (fun a => obind (get_arr g nb k) (fun b => make x a b)))).
Definition get_num_or (g : sgroup) (n : string) (d : R) : outcome R := match lookup n g with None => Ok d | Some _ => get_num g n end.
(** The deserializers, by registered name: 142, 181, 249, 361, 489, 618, 747. *)
Definition deser_body (name : string) (g : sgroup) : outcome body :=
  if String.eqb name "Vacuum" then Ok Vacuum
  else if String.eqb name "ConstantDensity" then obind (get_num g "constant_density") (fun r => obind (get_num g "constant_ye") (fun y => Ok (ConstantDensity r y)))
  else if String.eqb name "VariableDensity" then get_table g "x_arr" "density_arr" "ye_arr" make_variable
  else if String.eqb name "Earth" then get_table g "earth_radius" "earth_density" "earth_ye" make_earth
  else if String.eqb name "Sun" then get_table g "sun_radius" "sun_density" "sun_xh" make_sun
  else if String.eqb name "SunASnu" then get_table g "sun_radius" "sun_density" "sun_xh" make_sunasnu
  else if String.eqb name "EarthAtm" then
    obind (get_num_or g "radius" 6371) (fun r => obind (get_num_or g "atm_height" 22) (fun h =>
      get_table g "earth_radius" "earth_density" "earth_ye" (fun x a b => obind (make_table x a b) (fun t => Ok (EarthAtm t r h)))))
  else Throw RuntimeError.
Definition body_name (b : body) : string :=
  match b with Vacuum => "Vacuum" | ConstantDensity _ _ => "ConstantDensity" | VariableDensity _ => "VariableDensity" | Earth _ => "Earth"
             | Sun _ => "Sun" | SunASnu _ _ => "SunASnu" | EarthAtm _ _ _ => "EarthAtm" end.

(** Trajectories: 146-158, 189-201, 279-291, 533-545 (all alike), 421-435, 595-607, 709-734. *)
Definition kind_name (k : kind) : string :=
  match k with KVacuum => "VacuumTrack" | KConstantDensity => "ConstantDensityTrack" | KVariableDensity => "VariableDensityTrack" | KSun => "SunTrack" end.
Definition track_name (t : track) : string :=
  match t with Rect k _ _ _ => kind_name k | EarthTrack _ _ _ _ => "EarthTrack" | SunASnuTrack _ _ _ _ => "SunASnuTrack" | EarthAtmTrack _ _ _ _ _ _ _ => "EarthAtmTrack" end.
Definition ser_track (t : track) : sgroup :=
  [("name", SStr (track_name t)); ("x", SNum (pos t)); ("xini", SNum (ini t)); ("xend", SNum (fin t))] ++
  match t with
  | EarthTrack _ _ _ b => [("baseline", SNum b)]
  | EarthAtmTrack _ _ _ c r a _ => [("cosphi", SNum c); ("earth_radius", SNum r); ("atmheight", SNum a)]
  | _ => []
  end.
Definition deser_rect (k : kind) (g : sgroup) : outcome track :=
  obind (get_num g "x") (fun x => obind (get_num g "xini") (fun i => obind (get_num g "xend") (fun e => Ok (Rect k x i e)))).
Definition deser_track (name : string) (g : sgroup) : outcome track :=
  if String.eqb name "VacuumTrack" then deser_rect KVacuum g
  else if String.eqb name "ConstantDensityTrack" then deser_rect KConstantDensity g
  else if String.eqb name "VariableDensityTrack" then deser_rect KVariableDensity g
  else if String.eqb name "SunTrack" then deser_rect KSun g
  else if String.eqb name "EarthTrack" then
    obind (get_num g "x") (fun x => obind (get_num g "xini") (fun i => obind (get_num g "xend") (fun e => obind (get_num g "baseline") (fun b => Ok (EarthTrack x i e b)))))
  else if String.eqb name "SunASnuTrack" then
    obind (get_num g "x") (fun x => obind (get_num g "xini") (fun i => obind (get_num g "xend") (fun e => Ok (sunasnu_track x i e))))
  else if String.eqb name "EarthAtmTrack" then
    obind (get_num g "x") (fun x => obind (get_num g "cosphi") (fun c => obind (get_num_or g "earth_radius" (6371 * km)) (fun r =>
      obind (get_num_or g "atmheight" (22 * km)) (fun a => Ok (set_x (atm_track_cos c r a) x)))))
  else Throw RuntimeError.
End Units.

(** ** The registries, 907-935. A null pointer before the first registration; std::map::insert keeps the first. *)
Section Registry.
Context {F : Type}.
Definition registry := option (list (string * F)).
Definition register (r : registry) (name : string) (f : F) : registry :=
  let m := match r with None => [] | Some m => m end in
  Some (match lookup name m with Some _ => m | None => (name, f) :: m end).
Definition resolve (r : registry) (name : string) : outcome F :=
  match r with None => UB | Some m => match lookup name m with Some f => Ok f | None => Throw RuntimeError end end.
Definition register_all (r : registry) (l : list (string * F)) : registry := fold_left (fun r p => register r (fst p) (snd p)) l r.
End Registry.
