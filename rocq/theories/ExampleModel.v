(** The media and cross sections made by the examples: EarthMod (examples/Bodies/exBody.h and exBody.cpp)
    and LinearCrossSections (examples/Xsections/exCross.h, exCross.cpp). EmittingVacuum is in SourceModel.
    Doubles are reals. A model file is the list of its rows (radius, density, electron fraction); quickread's own
    behaviour is that of TableModel. *)
From Coq Require Import List Arith Reals String.
From Verif Require Import Err AkimaModel H5Model BodyModel.
Import ListNotations.
Local Open Scope R_scope.

(** ** EarthMod *)
Definition row := (R * R * R)%type.
Definition r_x (r : row) : R := fst (fst r).
Definition r_rho (r : row) : R := snd (fst r).
Definition r_ye (r : row) : R := snd r.

(** exBody.cpp:22-28 and 66-72: the factor of the row [i] *)
Definition layer (f1 f2 f3 : R) (i : nat) : R :=
  if Nat.ltb i 39 then f1 else if Nat.ltb i 110 then f2 else if Nat.ltb i 201 then f3 else 1.
Fixpoint weighted (f1 f2 f3 : R) (i : nat) (rows : list row) : list R :=
  match rows with [] => [] | r :: rows' => layer f1 f2 f3 i * r_rho r :: weighted f1 f2 f3 (S i) rows' end.

(** [em_size] is the member arraysize of EarthAtm: EarthMod sets a local variable of that name instead (17, 56). *)
Record earthmod := EarthMod { em_body : body; em_size : nat }.

(** exBody.cpp:16-44 (the body of Mod) and 56-83: table from the rows. The first and last element of an empty vector do not exist. *)
Definition mod_table (rows : list row) (f1 f2 f3 : R) : outcome table :=
  match rows with
  | [] => UB
  | _ => make_table (map r_x rows) (weighted f1 f2 f3 0 rows) (map r_ye rows)
  end.
(** src/body.cpp:848-877: the constructor of EarthAtm from a file, which runs first with the file of the PREM *)
Definition earthatm_of (rows : list row) : outcome body :=
  match rows with [] => UB | _ => make_earthatm (map r_x rows) (map r_rho rows) (map r_ye rows) end.
(** exBody.cpp:47-83 *)
Definition make_mod (prem rows : list row) (f1 f2 f3 : R) : outcome earthmod :=
  obind (earthatm_of prem) (fun _ => obind (mod_table rows f1 f2 f3) (fun t => Ok (EarthMod (EarthAtm t 6371 20) (List.length prem)))).
(** exBody.h:34 *)
Definition make_mod_default (prem : list row) (f1 f2 f3 : R) : outcome earthmod := make_mod prem prem f1 f2 f3.
(** exBody.cpp:15-45: Mod; only the table changes *)
Definition mod_call (prem : list row) (f1 f2 f3 : R) (e : earthmod) : outcome earthmod :=
  match em_body e with
  | EarthAtm _ r h => obind (mod_table prem f1 f2 f3) (fun t => Ok (EarthMod (EarthAtm t r h) (em_size e)))
  | _ => UB
  end.

(** EarthAtm::Serialize, src/body.cpp:736-745, on an EarthMod: arraysize elements of each vector are written *)
Local Open Scope string_scope.
Local Open Scope list_scope.
Definition ser_mod (e : earthmod) : outcome sgroup :=
  match em_body e with
  | EarthAtm t r h =>
    if Nat.ltb (List.length (t_x t)) (em_size e) then UB
    else Ok [("name", SStr "EarthAtm"); ("arraysize", SUInt (em_size e)); ("earth_radius", SArr (firstn (em_size e) (t_x t)));
             ("earth_density", SArr (firstn (em_size e) (t_a t))); ("earth_ye", SArr (firstn (em_size e) (t_b t))); ("radius", SNum r); ("atm_height", SNum h)]
  | _ => UB
  end.
Local Close Scope list_scope.
Local Close Scope string_scope.

(** ** LinearCrossSections. [gf], [mp] are its constants, [GeV] the unit *)
Inductive current := CurCC | CurNC | CurGR.
Section Linear.
  Variables gf mp GeV : R.
  (** exCross.cpp:4-12 *)
  Definition lin_total (q E : R) (c : current) : outcome R :=
    match c with
    | CurCC => Ok (/ 10 ^ 7 * 2 * (1 - q) * gf * gf * E * mp)
    | CurNC => Ok (/ 10 ^ 7 * 2 * q * gf * gf * E * mp)
    | CurGR => Throw RuntimeError
    end.
  (** exCross.cpp:14-21 *)
  Definition lin_diff (q E1 E2 : R) (c : current) : outcome R :=
    if Rlt_dec E1 E2 then Ok 0
    else if Rlt_dec E2 0 then Ok 0
    else obind (lin_total q E1 c) (fun s => Ok (s / (E1 / GeV) * (2 * E2 / E1))).
End Linear.
