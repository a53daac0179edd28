(** Ensembles kept in HDF5 files: nuSQUIDSAtm::WriteStateHDF5 and ReadStateHDF5 — include/nuSQuIDS/nuSQuIDS.h:1511-1604,
    on top of the files and objects of FileModel.

    Simplified: what a failed write leaves in the file is not kept (only its outcome); the group of a name is looked up
    under exactly this name. *)
From Coq Require Import Reals ZArith NArith Ascii String DecimalString List Arith Bool.
From Verif Require Import Err StructModel CMatrix FlavorModel FileModel.
Import ListNotations.
Open Scope R_scope.

(** ** std::to_string(double), which prints with "%f": six decimals of the exact value, ties to even (glibc) *)
Definition nearest (y : R) : Z :=
  let k := Int_part y in
  let r := y - IZR k in
  if Rlt_dec r (1 / 2) then k
  else if Rlt_dec (1 / 2) r then (k + 1)%Z
  else if Z.even k then k else (k + 1)%Z.
Definition million : N := 1000000.
Definition micro (x : R) : N := Z.to_N (nearest (Rabs x * 1000000)).
Definition digit (n : N) : ascii := ascii_of_N (48 + n mod 10).
(** the last [k] decimal digits *)
Fixpoint digits (k : nat) (m : N) : string :=
  match k with O => "" | S k' => (digits k' (m / 10) ++ String (digit m) "")%string end.
Definition decN (n : N) : string := NilEmpty.string_of_uint (N.to_uint n).
Definition to_string (x : R) : string :=
  ((if Rlt_dec x 0 then "-" else "") ++ decN (micro x / million) ++ "." ++ digits 6 (micro x))%string.

(** 1538, 1587, 1592 *)
Definition node_name (c : R) : string := ("/costh_" ++ to_string c)%string.

Section AtmFile.
Variables B T PB PT : Type.
Variable ser_body : B -> PB.
Variable ser_track : T -> PT.
Variable de_body : PB -> outcome B.
Variable de_track : PT -> outcome T.
Variable track_x : T -> R.
Variable maxdim : nat.
Variables sver nver : Z.
Variable pad : R.
Variable make_tables : obj B T -> outcome (istruct R).
Variable fresh : obj B T.                (* nuSQUIDS() *)
Variable is_earth : B -> bool.           (* dynamic_pointer_cast<EarthAtm> is not null *)

Notation wr := (write_state ser_body ser_track sver nver make_tables).
Notation rd := (read_state de_body de_track track_x maxdim sver nver pad).
Notation rdi := (read_internal de_body de_track track_x maxdim sver nver pad).

Record fatm := FAtm {
  fa_ini : option bool; fa_made : bool; fa_cos : list R; fa_E : list R;
  fa_nodes : list (obj B T); fa_tab : option (istruct R); fa_earth : option B }.

(** 1526-1530 *)
Definition root_group (a : fatm) : group PB PT :=
  Group [] [ ("zenith_angles", DDbl [length (fa_cos a)] (fa_cos a));
             ("energy_range", DDbl [length (fa_E a)] (fa_E a)) ]%string None None.

(** 1535-1541; [i] counts the nodes *)
Fixpoint write_nodes (oob : option nat) (cos : list R) (i : nat) (l : list (obj B T)) (f : file PB PT) : outcome (file PB PT) :=
  match l with
  | [] => Ok f
  | o :: l' =>
    match nth_error cos i with
    | None => UB
    | Some c => obind (wr oob false (Nat.eqb i 0) "crosssections" (node_name c) f o) (write_nodes oob cos (S i) l')
    end
  end.

(** 1511-1544.  H5Fcreate takes H5F_ACC_TRUNC or H5F_ACC_EXCL; with H5F_ACC_RDWR it fails. *)
Definition write_atm (oob : option nat) (overwrite : bool) (a : fatm) : outcome (file PB PT) :=
  match fa_ini a with
  | None => UB
  | Some false => Throw RuntimeError
  | Some true =>
    if negb (fa_made a) then Throw RuntimeError
    else if negb overwrite then Throw RuntimeError
    else write_nodes oob (fa_cos a) 0 (fa_nodes a) (put "/"%string (root_group a) [])
  end.

(** 1581-1597: the tables of the first node are kept if it has interactions; gives also what the nodes are after an
    exception *)
Fixpoint read_rest_nodes (f : file PB PT) (s : option (istruct R)) (cos : list R) : outcome unit * list (obj B T) :=
  match cos with
  | [] => (Ok tt, [])
  | c :: cos' =>
    match rdi (node_name c) f s fresh with
    | Ok o => let (r, l) := read_rest_nodes f s cos' in (r, o :: l)
    | Throw e => (Throw e, map (fun _ => fresh) cos)
    | UB => (UB, map (fun _ => fresh) cos)
    end
  end.
Definition read_nodes (f : file PB PT) (old : option (istruct R)) (cos : list R)
  : outcome unit * list (obj B T) * option (istruct R) :=
  match cos with
  | [] => (Ok tt, [], old)
  | c :: cos' =>
    match rd "crosssections" (node_name c) f fresh with
    | Ok o =>
      let s := if o_inter o then Some (o_tab o) else old in
      let (r, l) := read_rest_nodes f s cos' in (r, o :: l, s)
    | Throw e => (Throw e, map (fun _ => fresh) cos, old)
    | UB => (UB, map (fun _ => fresh) cos, old)
    end
  end.

(** 1550-1604; [None]: there is no such file.  The object is what it is after the call, also if it throws.  Without the
    two datasets the extents are uninitialised; without angles or without an EarthAtm the call is undefined (assert). *)
Definition read_atm (f : option (file PB PT)) (a : fatm) : outcome unit * fatm :=
  match f with
  | None => (Throw RuntimeError, a)
  | Some f =>
    match lookup "/"%string f with
    | None => (UB, a)
    | Some g =>
      match get_dset g "zenith_angles"%string, get_dset g "energy_range"%string with
      | Some (_, cos), Some (_, Es) =>
        match read_nodes f (fa_tab a) cos with
        | (Ok _, l, s) =>
          match l with
          | [] => (UB, a)
          | o :: _ =>
            match o_body o with
            | Some b => if is_earth b then (Ok tt, FAtm (Some true) true cos Es l s (Some b)) else (UB, a)
            | None => (UB, a)
            end
          end
        | (r, l, s) => (r, FAtm (fa_ini a) (fa_made a) cos Es l s (fa_earth a))
        end
      | _, _ => (UB, a)
      end
    end
  end.

End AtmFile.

Arguments FAtm {B T}. Arguments fa_ini {B T}. Arguments fa_made {B T}. Arguments fa_cos {B T}. Arguments fa_E {B T}.
Arguments fa_nodes {B T}. Arguments fa_tab {B T}. Arguments fa_earth {B T}. Arguments root_group {B T PB PT}.
Arguments write_nodes {B T PB PT}. Arguments write_atm {B T PB PT}. Arguments read_rest_nodes {B T PB PT}.
Arguments read_nodes {B T PB PT}. Arguments read_atm {B T PB PT}.
