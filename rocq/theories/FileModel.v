(** States kept in HDF5 files: nuSQUIDS::WriteStateHDF5, ReadStateHDF5 and
    ReadStateHDF5Internal — nuSQuIDS.cpp:1688-2715.

    A file is its groups; a group its attributes (of named objects), its
    datasets and what the body and the track stored there.  Of HDF5 we take
    that setting an attribute replaces the one of that name, that creating a
    group or dataset that exists fails (H5Handle then throws, tools.h:275-283),
    and that what is written is what is read.  Reading something that is not
    there without looking at the error code uses an uninitialised variable:
    [UB].  Files of older versions are [UB] here: their body and track
    (nuSQuIDS.cpp:2352-2374) and their tau spectra (2661-2683) are in
    LegacyModel.v, their cross sections (2471-2480) in OldXsModel.v.
    AddToWriteHDF5 and AddToReadHDF5, which do nothing here, are left out.
    Doubles are reals. *)
From Coq Require Import Reals Ascii String DecimalString List Arith Bool ZArith.
From Verif Require Import Err StructModel CMatrix FlavorModel.
Import ListNotations.
Open Scope R_scope.

Inductive attr := AInt (z : Z) | AStr (s : string) | ADbl (r : R).
Inductive dset := DDbl (dims : list nat) (data : list R) | DInt (data : list Z).

(** std::to_string of an unsigned *)
Definition dec (n : nat) : string := NilEmpty.string_of_uint (Nat.to_uint n).

(** 1772-1793, 2401-2418 *)
Definition angle_label (i j : nat) : string := ("th" ++ dec (S i) ++ dec (S j))%string.
Definition phase_label (i j : nat) : string := ("delta" ++ dec (S i) ++ dec (S j))%string.
Definition dm_label (i : nat) : string := ("dm" ++ dec (S i) ++ "1sq")%string.

(** the pairs i < j < n, in the order of the loops *)
Definition pairs (n : nat) : list (nat * nat) :=
  flat_map (fun i => map (fun j => (i, j)) (seq (S i) (n - S i))) (seq 0 n).

(** nuSQuIDS.h:61-65 *)
Definition nt_code (t : nutype) : Z := match t with Neutrino => 1 | Antineutrino => 2 | Both => 3 end.
Definition nt_of (z : Z) : option nutype :=
  if Z.eqb z 1 then Some Neutrino else if Z.eqb z 2 then Some Antineutrino
  else if Z.eqb z 3 then Some Both else None.

Definition bool_int (b : bool) : Z := if b then 1%Z else 0%Z.
Definition upd2 (f : nat -> nat -> R) (i j : nat) (v : R) : nat -> nat -> R :=
  fun a b => if Nat.eqb a i && Nat.eqb b j then v else f a b.
Definition upd1 (f : nat -> R) (i : nat) (v : R) : nat -> R :=
  fun a => if Nat.eqb a i then v else f a.

(** tables: [k] rows of [w] items *)
Fixpoint rows {A} (k w : nat) (d : list A) : list (list A) :=
  match k with O => [] | S k' => firstn w d :: rows k' w (skipn w d) end.

(** round_up_to_aligned, nuSQuIDS.h:132-136, on numbers that do not wrap *)
Definition rounded (n : nat) : nat := (4 * ((n + 3) / 4))%nat.

Fixpoint lookup {A} (k : string) (l : list (string * A)) : option A :=
  match l with
  | [] => None
  | (k', a) :: l' => if String.eqb k k' then Some a else lookup k l'
  end.

Definition key := (string * string)%type.
Fixpoint look_attr (o n : string) (l : list (key * attr)) : option attr :=
  match l with
  | [] => None
  | (k, a) :: l' => if String.eqb o (fst k) && String.eqb n (snd k) then Some a else look_attr o n l'
  end.

Section File.
Variables B T PB PT : Type.              (* bodies, tracks, and what they write *)
Variable ser_body : B -> PB.             (* Body::Serialize, the name included *)
Variable ser_track : T -> PT.
Variable de_body : PB -> outcome B.      (* GetBodyDeserializer(name)(group) *)
Variable de_track : PT -> outcome T.
Variable track_x : T -> R.               (* Track::GetX *)
Variable maxdim : nat.                   (* SQUIDS_MAX_HILBERT_DIM *)
Variables sver nver : Z.                 (* SQUIDS_VERSION, NUSQUIDS_VERSION *)
Variable pad : R.                        (* items of a resized array before they are filled *)

Record group := Group {
  g_attr : list (key * attr); g_data : list (string * dset);
  g_body : option PB; g_track : option PT }.
Definition file := list (string * group).

(** The evolution object: nuSQuIDS.h:296-501, and of SQuIDS the clock, the
    parameters and the store of density matrices with its extents.  The
    projectors are those of the parameters (iniProjectors). *)
Record obj := Obj {
  o_nt : nutype; o_flav : nat; o_E : list R;              (* NT, numneu, E_range (ne its extent) *)
  o_nsun : nat; o_nx : nat; o_nrhos : nat;                (* nsun, nodes and matrices of the store *)
  o_rho : nat -> nat -> nat -> R;                         (* state[ei].rho[r][component] *)
  o_angle : nat -> nat -> R; o_phase : nat -> nat -> R; o_dm : nat -> R;
  o_inter : bool; o_osc : bool; o_tau : bool; o_glash : bool;
  o_t : R; o_t0 : R; o_off : R;                           (* clock, its start, time_offset *)
  o_body : option B; o_track : option T;
  o_basis : basis;
  o_tabled : bool; o_tab : istruct R;                     (* interactions_initialized, int_struct *)
  o_row : nat;                                            (* last extent of nc_factors *)
  o_ini : bool;                                           (* inusquids *)
  o_ibody : bool; o_itrack : bool; o_istate : bool; o_ienergy : bool }.

Definition ne (o : obj) : nat := length (o_E o).

(** InitializeInteractions (C45), called by the writer if it has not been *)
Variable make_tables : obj -> outcome (istruct R).

(** ** Writing *)

(** 1743-1768 *)
Definition basic_attrs (o : obj) : list (key * attr) :=
  [ (("basic", "numneu"), AInt (Z.of_nat (o_flav o)));
    (("basic", "NT"), AInt (nt_code (o_nt o)));
    (("basic", "interactions"), AStr (if o_inter o then "True" else "False"));
    (("basic", "oscillations"), AInt (bool_int (o_osc o)));
    (("basic", "tau_regeneration"), AInt (bool_int (o_tau o)));
    (("basic", "glashow_resonance"), AInt (bool_int (o_glash o)));
    (("basic", "squids_time"), ADbl (o_t o));
    (("basic", "squids_time_initial"), ADbl (o_t0 o));
    (("basic", "squids_version_number"), AInt sver);
    (("basic", "nusquids_version_number"), AInt nver) ]%string.

(** 1771-1793 *)
Definition mixing_attrs (o : obj) : list (key * attr) :=
  flat_map (fun p => [ (("mixingangles", angle_label (fst p) (snd p)), ADbl (o_angle o (fst p) (snd p)));
                       (("CPphases", phase_label (fst p) (snd p)), ADbl (o_phase o (fst p) (snd p))) ]%string)
    (pairs (o_flav o))
  ++ map (fun i => (("massdifferences", dm_label i), ADbl (o_dm o i))%string) (seq 1 (o_flav o - 1)).

(** attributes in the order they are set *)
Definition set_all (l : list (key * attr)) : list (key * attr) := fold_left (fun acc a => a :: acc) l [].

(** 1796-1818 *)
Definition state_data (o : obj) (r : option nat) : list R :=
  flat_map (fun ie => map (fun i => match r with Some r => o_rho o ie r i | None => 0 end)
                        (seq 0 (o_flav o * o_flav o)))
    (seq 0 (ne o)).
Definition nu_index (t : nutype) : option nat := match t with Antineutrino => None | _ => Some 0%nat end.
Definition anti_index (t : nutype) : option nat :=
  match t with Neutrino => None | Antineutrino => Some 0%nat | Both => Some 1%nat end.

(** 1733-1735, 1820-1821 *)
Definition state_dsets (o : obj) : list (string * dset) :=
  [ ("energies", DDbl [ne o] (o_E o));
    ("neustate", DDbl [ne o; o_flav o * o_flav o]%nat (state_data o (nu_index (o_nt o))));
    ("aneustate", DDbl [ne o; o_flav o * o_flav o]%nat (state_data o (anti_index (o_nt o)))) ]%string.

(** H5Dwrite of a table: the array as it is, or row by row without the padding *)
Definition whole_or_rows (whole : bool) (k n w : nat) (d : list R) : list R :=
  if whole then firstn (k * n) d else flat_map (firstn n) (rows k w d).

(** a table the writer can handle has the extents of the object; others are
    not modelled *)
Definition shaped (a : arr R) (sh : list nat) : bool :=
  if list_eq_dec Nat.eq_dec (a_shape a) sh then true else false.

(** 1844-2052.  [oob] is what int_struct->dNdE_GR.extent(4) gives at 1945:
    dNdE_GR has rank 2, so this reads past the end of the extents; [None]: the
    undefined behaviour it is. *)
Definition table_dsets (oob : option nat) (o : obj) (s : istruct R) : outcome (list (string * dset)) :=
  let k := length (targets s) in
  let nr := o_nrhos o in let f := o_flav o in let n := ne o in let w := last (a_shape (sigma_CC s)) 0%nat in
  if shaped (sigma_CC s) [k; nr; f; w] && shaped (sigma_NC s) [k; nr; f; w] && shaped (sigma_GR s) [w]
     && shaped (dNdE_CC s) [k; nr; f; n; w] && shaped (dNdE_NC s) [k; nr; f; n; w] && shaped (dNdE_GR s) [n; w]
     && shaped (tau_all s) [nr; n; w] && shaped (tau_lep s) [nr; n; w]
  then
    match oob with
    | None => UB
    | Some g =>
      Ok [ ("targets", DInt (targets s));
           ("sigmacc", DDbl [k; nr; f; n] (whole_or_rows (Nat.eqb w n) (k * nr * f) n w (a_data (sigma_CC s))));
           ("sigmanc", DDbl [k; nr; f; n] (whole_or_rows (Nat.eqb w n) (k * nr * f) n w (a_data (sigma_NC s))));
           ("sigmagr", DDbl [n] (whole_or_rows (Nat.eqb w n) 1 n w (a_data (sigma_GR s))));
           ("dNdEcc", DDbl [k; nr; f; n; n] (whole_or_rows (Nat.eqb g n) (k * nr * f * n) n w (a_data (dNdE_CC s))));
           ("dNdEnc", DDbl [k; nr; f; n; n] (whole_or_rows (Nat.eqb g n) (k * nr * f * n) n w (a_data (dNdE_NC s))));
           ("dNdEgr", DDbl [n; n] (whole_or_rows (Nat.eqb g n) n n w (a_data (dNdE_GR s))));
           ("dNdEtauall", DDbl [nr; n; n] (whole_or_rows (Nat.eqb w n) (nr * n) n w (a_data (tau_all s))));
           ("dNdEtaulep", DDbl [nr; n; n] (whole_or_rows (Nat.eqb w n) (nr * n) n w (a_data (tau_lep s)))) ]%string%nat
    end
  else UB.

(** 1722-1725, 2294-2297: '/' is put in front of a name without it *)
Definition norm (grp : string) : string :=
  match grp with
  | String c _ => if Ascii.eqb c "/"%char then grp else String "/" grp
  | EmptyString => "/"%string
  end.
Definition has (p : string) (f : file) : bool := match lookup p f with Some _ => true | None => false end.
Definition is_root (p : string) : bool := String.eqb p "/".
Definition under (p sub : string) : string :=
  if is_root p then ("/" ++ sub)%string else (p ++ "/" ++ sub)%string.
(** 1834-1842, 2457-2462 *)
Definition xs_path (p loc : string) : string :=
  if String.eqb loc "" then under p "crosssections" else norm loc.

Definition put (p : string) (g : group) (f : file) : file := (p, g) :: f.
Definition empty_group : group := Group [] [] None None.
Definition add_dsets (g : group) (ds : list (string * dset)) : group :=
  Group (g_attr g) (g_data g ++ ds) (g_body g) (g_track g).

(** 1711-1720: a new file, or the one that is there *)
Definition base (overwrite : bool) (f : file) : file := if overwrite then [] else f.

(** 1688-2068 *)
Definition write_state (oob : option nat) (overwrite save : bool) (loc grp : string) (f : file) (o : obj)
  : outcome file :=
  match o_body o, o_track o with
  | Some b, Some t =>
    if negb (o_ibody o && o_itrack o && o_istate o && o_ienergy o) then Throw RuntimeError
    else
      let save := if o_inter o then save else false in
      let f := base overwrite f in
      let p := norm grp in
      if has p f then Throw RuntimeError
      else
        let g := Group (set_all (basic_attrs o ++ mixing_attrs o)) (state_dsets o)
                   (Some (ser_body b)) (Some (ser_track t)) in
        let f1 := put p g f in
        let xp := xs_path p loc in
        let old := lookup xp f1 in
        match loc, old with
        | EmptyString, Some _ => Throw RuntimeError
        | _, _ =>
          let xg := match old with Some x => x | None => empty_group end in
          if o_inter o && save then
            obind (if o_tabled o then Ok (o_tab o) else make_tables o) (fun s =>
            match lookup "targets" (g_data xg) with
            | Some _ => Throw RuntimeError
            | None => obind (table_dsets oob o s) (fun ds => Ok (put xp (add_dsets xg ds) f1))
            end)
          else Ok (match old with Some _ => f1 | None => put xp empty_group f1 end)
        end
  | _, _ => Throw RuntimeError
  end.

(** ** Reading *)

Definition get_int (g : group) (o n : string) : option Z :=
  match look_attr o n (g_attr g) with Some (AInt z) => Some z | _ => None end.
Definition get_dbl (g : group) (o n : string) : option R :=
  match look_attr o n (g_attr g) with Some (ADbl r) => Some r | _ => None end.
Definition get_str (g : group) (o n : string) : option string :=
  match look_attr o n (g_attr g) with Some (AStr s) => Some s | _ => None end.
(** the calls that look at the error code keep the old value *)
Definition get_flag (g : group) (n : string) (old : bool) : bool :=
  match get_int g "basic" n with Some z => negb (Z.eqb z 0) | None => old end.
(** the others leave their variable uninitialised *)
Definition need {A C} (x : option A) (k : A -> outcome C) : outcome C :=
  match x with Some a => k a | None => UB end.

Definition get_dset (g : group) (n : string) : option (list nat * list R) :=
  match lookup n (g_data g) with Some (DDbl dims d) => Some (dims, d) | _ => None end.

(** Set_MixingParametersToDefault 2884-2894 *)
Definition dflt_angle (a : nat -> nat -> R) : nat -> nat -> R :=
  upd2 (upd2 (upd2 a 0 1 (583638 / 1000000)) 0 2 (149575 / 1000000)) 1 2 (855211 / 1000000).
Definition dflt_phase (a : nat -> nat -> R) : nat -> nat -> R := upd2 a 0 2 0.
Definition dflt_dm (a : nat -> R) : nat -> R := upd1 (upd1 a 1 (742 / 10000000)) 2 (2514 / 1000000).

(** init(double) 77-140 and Set_E 142-153, init(energies,double) 155-257: the
    parts of the object they set; the store is new *)
Definition init_single (o : obj) (t0 E : R) : outcome obj :=
  match o_nt o with
  | Both => Throw RuntimeError
  | _ =>
    if Nat.ltb maxdim (o_flav o) || Nat.ltb (o_flav o) 3 then Throw RuntimeError
    else
      let ph := dflt_phase (o_phase o) in
      let ph := match o_nt o with
                | Antineutrino => fun i j => if Nat.ltb i j && Nat.ltb j (o_flav o) then - ph i j else ph i j
                | _ => ph
                end in
      Ok (Obj (o_nt o) (o_flav o) [E] (o_flav o) 1 1 (fun _ _ _ => pad)
            (dflt_angle (o_angle o)) ph (dflt_dm (o_dm o)) (o_inter o) (o_osc o) (o_tau o) (o_glash o)
            t0 t0 (o_off o) (o_body o) (o_track o) (o_basis o) (o_tabled o) (o_tab o) (o_row o)
            true (o_ibody o) (o_itrack o) false true)
  end.
Definition set_e (o : obj) (E : R) : obj :=
  Obj (o_nt o) (o_flav o) [E] (o_nsun o) (o_nx o) (o_nrhos o) (o_rho o)
      (o_angle o) (o_phase o) (o_dm o) (o_inter o) (o_osc o) (o_tau o) (o_glash o)
      (o_t o) (o_t0 o) (o_off o) (o_body o) (o_track o) (o_basis o) (o_tabled o) (o_tab o) (o_row o)
      (o_ini o) (o_ibody o) (o_itrack o) false true.
Definition init_multi (o : obj) (t0 : R) (Es : list R) : outcome obj :=
  if Nat.ltb maxdim (o_flav o) || Nat.ltb (o_flav o) 3 then Throw RuntimeError
  else if Nat.eqb (length Es) 0 then UB        (* assert(ne>0), then ne-1 wraps *)
  else
    Ok (Obj (o_nt o) (o_flav o) Es (o_flav o) (length Es) (match o_nt o with Both => 2 | _ => 1 end)%nat
          (fun _ _ _ => pad) (dflt_angle (o_angle o)) (dflt_phase (o_phase o)) (dflt_dm (o_dm o))
          (o_inter o) (o_osc o) (o_tau o) (o_glash o)
          t0 t0 (o_off o) (o_body o) (o_track o) (o_basis o) (o_tabled o) (o_tab o) (o_row o)
          (o_ini o) (o_ibody o) (o_itrack o) (o_istate o) true).

(** 2401-2418 *)
Fixpoint read_pairs (g : group) (l : list (nat * nat)) (an ph : nat -> nat -> R)
  : outcome ((nat -> nat -> R) * (nat -> nat -> R)) :=
  match l with
  | [] => Ok (an, ph)
  | (i, j) :: l' =>
    need (get_dbl g "mixingangles" (angle_label i j)) (fun a =>
    need (get_dbl g "CPphases" (phase_label i j)) (fun d =>
    read_pairs g l' (upd2 an i j a) (upd2 ph i j d)))
  end.
Fixpoint read_dms (g : group) (l : list nat) (dm : nat -> R) : outcome (nat -> R) :=
  match l with
  | [] => Ok dm
  | i :: l' => need (get_dbl g "massdifferences" (dm_label i)) (fun a => read_dms g l' (upd1 dm i a))
  end.

(** 2438-2460: both datasets are walked with the extents of the second *)
Definition read_rho (nt : nutype) (d0 d1 : nat) (neu aneu : list R) (old : nat -> nat -> nat -> R)
  : nat -> nat -> nat -> R :=
  fun ie r j =>
    if Nat.ltb ie d0 && Nat.ltb j d1 then
      match nt, r with
      | Neutrino, O => nth (ie * d1 + j) neu 0
      | Antineutrino, O => nth (ie * d1 + j) aneu 0
      | Both, O => nth (ie * d1 + j) neu 0
      | Both, S O => nth (ie * d1 + j) aneu 0
      | _, _ => old ie r j
      end
    else old ie r j.
Definition highest (nt : nutype) : nat := match nt with Both => 1 | _ => 0 end.

(** what both readers do before the object is initialised again, 2285-2386 and
    2078-2177; gives the object, the clock, its start and the version of the file *)
Definition read_header (g : group) (o : obj) : outcome (obj * R * R * Z) :=
  need (get_int g "basic" "numneu") (fun flav =>
  need (get_int g "basic" "NT") (fun code =>
  need (get_str g "basic" "interactions") (fun inter =>
  need (get_dbl g "basic" "squids_time") (fun t =>
  need (get_dbl g "basic" "squids_time_initial") (fun t0 =>
  need (get_int g "basic" "squids_version_number") (fun sv =>
  if Z.ltb sver sv then Throw RuntimeError else
  need (get_int g "basic" "nusquids_version_number") (fun nv =>
  if Z.ltb nver nv then Throw RuntimeError else
  if Z.leb nv 100000 then UB else
  match g_body g, g_track g with
  | Some pb, Some pt =>
    obind (de_body pb) (fun b => obind (de_track pt) (fun tr =>
    need (get_dset g "energies") (fun e =>
    match nt_of code with
    | None => Throw RuntimeError
    | Some nt =>
      Ok (Obj nt (Z.to_nat flav) (snd e) (o_nsun o) (o_nx o) (o_nrhos o) (o_rho o)
        (o_angle o) (o_phase o) (o_dm o) (String.eqb inter "True")
        (get_flag g "oscillations" (o_osc o)) (get_flag g "tau_regeneration" (o_tau o))
        (get_flag g "glashow_resonance" (o_glash o))
        (o_t o) (o_t0 o) (o_off o) (Some b) (Some tr) (o_basis o) (o_tabled o) (o_tab o) (o_row o)
        (o_ini o) (o_ibody o) (o_itrack o) (o_istate o) (o_ienergy o), t, t0, nv)
    end)))
  | _, _ => UB
  end))))))).

(** 2388-2397, 2179-2188: a single energy is set in an object that has been
    initialised for one *)
Definition initialise (o : obj) (t0 : R) : outcome obj :=
  match o_E o with
  | [E] => if o_ini o then Ok (set_e o E) else init_single o t0 E
  | _ => init_multi o t0 (o_E o)
  end.

(** 2399-2460, 2191-2245 *)
Definition read_rest (g : group) (t : R) (o : obj) : outcome obj :=
  obind (read_pairs g (pairs (o_flav o)) (o_angle o) (o_phase o)) (fun mix =>
  obind (read_dms g (seq 1 (o_flav o - 1)) (o_dm o)) (fun dms =>
  need (o_track o) (fun tr =>
  need (get_dset g "neustate") (fun neu =>
  need (get_dset g "aneustate") (fun aneu =>
  match fst aneu with
  | [d0; d1] =>
    (* the store must be large enough: nodes, matrices and components *)
    if Nat.ltb (o_nx o) d0 || Nat.ltb (o_nsun o * o_nsun o) d1 || Nat.leb (o_nrhos o) (highest (o_nt o))
       || Nat.ltb (length (snd neu)) (d0 * d1) || Nat.ltb (length (snd aneu)) (d0 * d1)
    then UB
    else
      Ok (Obj (o_nt o) (o_flav o) (o_E o) (o_nsun o) (o_nx o) (o_nrhos o)
            (read_rho (o_nt o) d0 d1 (snd neu) (snd aneu) (o_rho o))
            (fst mix) (snd mix) dms
            (o_inter o) (o_osc o) (o_tau o) (o_glash o)
            t (o_t0 o) (t - track_x tr) (o_body o) (o_track o) (o_basis o)
            (o_tabled o) (o_tab o) (o_row o) (o_ini o) true true true true)
  | _ => UB
  end))))).

(** both readers before the tables *)
Definition read_common (g : group) (o : obj) : outcome (obj * Z) :=
  obind (read_header g o) (fun h =>
  match h with
  | (o1, t, t0, nv) =>
    obind (initialise o1 t0) (fun o2 =>
    obind (read_rest g t o2) (fun o3 => Ok (o3, nv)))
  end).

(** H5Dread into a table of [k] rows of width [w], of which [n] are in the file *)
Definition fill_table (sh : list nat) (k n w : nat) (d : list R) : outcome (arr R) :=
  if Nat.eqb (length d) (k * n) then
    Ok (Arr sh (if Nat.eqb w n then d else flat_map (fun r => r ++ repeat pad (w - n)) (rows k n d)))
  else UB.

Definition with_tables (o : obj) (s : istruct R) (row : nat) : obj :=
  Obj (o_nt o) (o_flav o) (o_E o) (o_nsun o) (o_nx o) (o_nrhos o) (o_rho o)
      (o_angle o) (o_phase o) (o_dm o) (o_inter o) (o_osc o) (o_tau o) (o_glash o)
      (o_t o) (o_t0 o) (o_off o) (o_body o) (o_track o) (o_basis o) true s row
      (o_ini o) (o_ibody o) (o_itrack o) (o_istate o) (o_ienergy o).

(** 2463-2698 *)
Definition read_tables (xg : group) (nv : Z) (o : obj) : outcome obj :=
  if Z.ltb nv 101100 then UB else
  match lookup "targets" (g_data xg) with
  | Some (DInt (t :: ts)) =>
    let k := length (t :: ts) in
    let nr := o_nrhos o in let f := o_flav o in let n := ne o in let w := rounded n in
    need (get_dset xg "sigmacc") (fun scc => need (get_dset xg "dNdEcc") (fun dcc =>
    need (get_dset xg "sigmanc") (fun snc => need (get_dset xg "sigmagr") (fun sgr =>
    need (get_dset xg "dNdEnc") (fun dnc => need (get_dset xg "dNdEgr") (fun dgr =>
    need (get_dset xg "dNdEtauall") (fun ta => need (get_dset xg "dNdEtaulep") (fun tl =>
    obind (fill_table [k; nr; f; w] (k * nr * f) n w (snd scc)) (fun a_scc =>
    obind (fill_table [k; nr; f; w] (k * nr * f) n w (snd snc)) (fun a_snc =>
    obind (fill_table [w] 1 n w (snd sgr)) (fun a_sgr =>
    obind (fill_table [k; nr; f; n; w] (k * nr * f * n) n w (snd dcc)) (fun a_dcc =>
    obind (fill_table [k; nr; f; n; w] (k * nr * f * n) n w (snd dnc)) (fun a_dnc =>
    obind (fill_table [n; w] n n w (snd dgr)) (fun a_dgr =>
    obind (fill_table [nr; n; w] (nr * n) n w (snd ta)) (fun a_ta =>
    obind (fill_table [nr; n; w] (nr * n) n w (snd tl)) (fun a_tl =>
    (* 2690: the rows of nc_factors are not rounded up *)
    Ok (with_tables o (Istruct (t :: ts) a_dcc a_dnc a_dgr a_scc a_snc a_sgr a_ta a_tl) n)
    ))))))))))))))))
  | _ => Throw RuntimeError
  end.

(** 2285-2715 *)
Definition read_state (loc grp : string) (f : file) (o : obj) : outcome obj :=
  let p := norm grp in
  match lookup p f with
  | None => Throw RuntimeError
  | Some g =>
    obind (read_common g o) (fun r =>
    let (o', nv) := r in
    if o_inter o' then
      match lookup (xs_path p loc) f with
      | None => Throw RuntimeError
      | Some xg => read_tables xg nv o'
      end
    else Ok o')
  end.

(** 2078-2283: the tables are given *)
Definition read_internal (grp : string) (f : file) (s : option (istruct R)) (o : obj) : outcome obj :=
  match lookup (norm grp) f with
  | None => Throw RuntimeError
  | Some g =>
    obind (read_common g o) (fun r =>
    let (o', nv) := r in
    if o_inter o' then
      match s with
      | None => Throw RuntimeError
      | Some s => Ok (with_tables o' s (rounded (ne o')))
      end
    else Ok o')
  end.

(** ** Observables (C55) *)
Variable mat_of : nat -> (nat -> R) -> mat.      (* the matrix of an SU_vector's components *)
Variable order : list (nat * nat).               (* rotations of RotateToB1 *)

(** EvalFlavorAtNode 1522-1530 *)
Definition flavor_at (o : obj) (k ei r : nat) : R :=
  eval_flavor (o_nsun o) (o_basis o) (h0 (o_nsun o) (o_osc o) (o_dm o) (nth ei (o_E o) 0)) (o_t o) (o_t0 o)
    (b1_proj (o_nsun o) (o_angle o) (o_phase o) order (o_nt o) r) (mat_of (o_nsun o) (o_rho o ei r)) k.
(** EvalMassAtNode 1512-1520 *)
Definition mass_at (o : obj) (k ei r : nat) : R :=
  eval_mass (o_nsun o) (o_basis o) (h0 (o_nsun o) (o_osc o) (o_dm o) (nth ei (o_E o) 0)) (o_t o) (o_t0 o)
    (mat_of (o_nsun o) (o_rho o ei r)) k.

End File.

Arguments Group {PB PT}. Arguments g_attr {PB PT}. Arguments g_data {PB PT}. Arguments g_body {PB PT}. Arguments g_track {PB PT}.
Arguments Obj {B T}. Arguments o_nt {B T}. Arguments o_flav {B T}. Arguments o_E {B T}. Arguments o_nsun {B T}.
Arguments o_nx {B T}. Arguments o_nrhos {B T}. Arguments o_rho {B T}. Arguments o_angle {B T}. Arguments o_phase {B T}.
Arguments o_dm {B T}. Arguments o_inter {B T}. Arguments o_osc {B T}. Arguments o_tau {B T}. Arguments o_glash {B T}.
Arguments o_t {B T}. Arguments o_t0 {B T}. Arguments o_off {B T}. Arguments o_body {B T}. Arguments o_track {B T}.
Arguments o_basis {B T}. Arguments o_tabled {B T}. Arguments o_tab {B T}. Arguments o_row {B T}. Arguments o_ini {B T}.
Arguments o_ibody {B T}. Arguments o_itrack {B T}. Arguments o_istate {B T}. Arguments o_ienergy {B T}.
Arguments ne {B T}. Arguments basic_attrs {B T}. Arguments mixing_attrs {B T}. Arguments state_data {B T}.
Arguments state_dsets {B T}. Arguments table_dsets {B T}. Arguments has {PB PT}. Arguments put {PB PT}.
Arguments base {PB PT}. Arguments empty_group {PB PT}. Arguments add_dsets {PB PT}. Arguments write_state {B T PB PT}.
Arguments get_int {PB PT}. Arguments get_dbl {PB PT}. Arguments get_str {PB PT}. Arguments get_flag {PB PT}.
Arguments get_dset {PB PT}. Arguments init_single {B T}. Arguments init_multi {B T}. Arguments set_e {B T}.
Arguments read_pairs {PB PT}. Arguments read_dms {PB PT}. Arguments read_header {B T PB PT}. Arguments initialise {B T}. Arguments read_rest {B T PB PT}. Arguments read_common {B T PB PT}.
Arguments with_tables {B T}. Arguments read_tables {B T PB PT}. Arguments read_state {B T PB PT}.
Arguments read_internal {B T PB PT}. Arguments flavor_at {B T}. Arguments mass_at {B T}.
