(** Model of cross-section files (src/xsections.cpp 110-167, 270-586, 698-847). Numbers in text files are exact reals (digits lost by
    printing: C15). HDF5 single-precision storage is the function [rnd]. Which files exist, names and error wrapping are left out. *)
From Coq Require Import List Arith Reals Bool.
From Verif Require Import Err GridModel AkimaModel BicubicModel TauModel XsModel.
Import ListNotations.
Local Open Scope R_scope.

(** ** Text, current class *)
Section Text.
Variable GeV : R.
(** read1DInterpolationFromText, 110-125: rows of energy in GeV and cross section; the table and the energy range. A file
    without rows does not have two columns (tools.cpp:54-75), it is refused at 112. *)
Definition read1D (rows : list (R * R)) : outcome (total_tab * R * R) :=
  match rows with
  | [] => Throw RuntimeError
  | r :: _ =>
      let t := TT (map (fun p => log10 (fst p * GeV)) rows) (map (fun p => log10 (snd p)) rows) in
      obind (tot_spline t) (fun _ => Ok (t, fst r * GeV, fst (last rows r) * GeV))
  end.
(** write1D, 338-347 *)
Definition write1D (t : total_tab) : list (R * R) := map (fun p => (pow10 (fst p) / GeV, pow10 (snd p))) (combine (tt_x t) (tt_y t)).

Definition row3 := (R * R * R)%type.
Definition en3 (r : row3) : R := fst (fst r).
Definition zero3 : row3 := (0, 0, 0).
(** The loop counting the rows of the first energy, 131-138. *)
Fixpoint z_loop (started : bool) (prev : R) (rows : list row3) : nat :=
  match rows with
  | [] => 0%nat
  | r :: rest => if andb started (if Req_EM_T (en3 r) prev then false else true) then 0%nat else S (z_loop true (en3 r) rest)
  end.
(** 157-161; the logarithm of a number that is not positive is not finite. *)
Definition log_or_tiny (v : R) : R := if rlt 0 v then log10 v else -50.
Definition grid2 {A : Type} (r c : nat) (f : nat -> nat -> A) : list A := flat_map (fun i => map (f i) (seq 0 c)) (seq 0 r).
(** read2DInterpolationFromText, 127-167; no rows: refused at 129, as above *)
Definition read2D (rows : list row3) : outcome (diff_tab * R * R) :=
  let n := List.length rows in
  let z := z_loop false 0 rows in
  if Nat.eqb z 0 then Throw RuntimeError else
  let e := (n / z)%nat in
  if orb (Nat.eqb z n) (negb (Nat.eqb (e * z) n)) then Throw RuntimeError else
  let t := DT (map (fun j => log10 (en3 (nth (j * z) rows zero3) * GeV)) (seq 0 e)) (map (fun j => INR j / INR (z - 1)) (seq 0 z)) z e
              (grid2 z e (fun i j => log_or_tiny (snd (nth (j * z + i) rows zero3)))) in
  obind (diff_interp t) (fun _ => Ok (t, en3 (nth 0 rows zero3) * GeV, en3 (nth (n - 1) rows zero3) * GeV)).
(** write2D, 348-360: element [i][j] is read with i over the energies and j over the fractions, unchecked. *)
Fixpoint oseq {A : Type} (l : list (outcome A)) : outcome (list A) :=
  match l with [] => Ok [] | o :: r => obind o (fun a => obind (oseq r) (fun b => Ok (a :: b))) end.
Definition write2D (t : diff_tab) : outcome (list row3) :=
  oseq (grid2 (List.length (dt_x t)) (List.length (dt_y t)) (fun i j =>
    let k := (i * dt_cols t + j)%nat in
    if Nat.ltb k (List.length (dt_z t)) then Ok (pow10 (nth i (dt_x t) 0) / GeV, nth j (dt_y t) 0, pow10 (nth k (dt_z t) 0)) else UB)).
End Text.

(** ** HDF5, current class *)
(** perFlavorData behind shared pointers. All constructors fill the three flavours. *)
Record xsp := XSP { p_Emin : R; p_Emax : R; p_ptr : flavor -> nat; p_heap : nat -> fdata }.
Definition p_data (X : xsp) (f : flavor) : fdata := p_heap X (p_ptr X f).
Definition xs_of (X : xsp) : xs := XS (p_Emin X) (p_Emax X) (fun f => match f with sterile => None | _ => Some (p_data X f) end).
(** A group holding the tables of a flavour, and a file; links to groups are by object number. *)
Record h5flav := HF { h_tot : chan -> list R; h_diff : chan -> nat * nat * list R }.
Record h5xs := HX { h_en : list R; h_zs : list R; h_link : flavor -> nat; h_obj : nat -> h5flav }.
Section Hdf.
Variable rnd : R -> R.
(** writeFlavorHDF5, 529-539 *)
Definition write_flav (d : fdata) : h5flav :=
  HF (fun c => map rnd (tt_y (f_tot d c))) (fun c => (dt_rows (f_diff d c), dt_cols (f_diff d c), map rnd (dt_z (f_diff d c)))).
(** WriteHDF, 541-586; [first] is the flavour the unordered map happens to begin with. *)
Definition write_hdf (first : flavor) (X : xsp) : h5xs :=
  let t := f_diff (p_data X first) CCnu in
  let muon_link := if orb true (Nat.eqb (p_ptr X electron) (p_ptr X muon)) then 0%nat else 2%nat in
  HX (map rnd (dt_x t)) (map rnd (dt_y t))
     (fun f => match f with
               | electron => 0%nat
               | muon => muon_link
               | _ => if Nat.eqb (p_ptr X electron) (p_ptr X tau) then 0%nat else if Nat.eqb (p_ptr X muon) (p_ptr X tau) then muon_link else 1%nat
               end)
     (fun k => write_flav (p_data X (match k with O => electron | 1%nat => tau | _ => muon end))).
End Hdf.
(** readFlavorHDF5, 381-413 *)
Definition read_total (en : list R) (v : list R) : outcome unit :=
  if Nat.eqb (List.length v) (List.length en) then obind (tot_spline (TT en v)) (fun _ => Ok tt) else Throw RuntimeError.
Definition read_diff (en zs : list R) (t : nat * nat * list R) : outcome unit :=
  let '(r, c, v) := t in
  if negb (Nat.eqb r (List.length en)) then Throw RuntimeError
  else if negb (Nat.eqb c (List.length zs)) then Throw RuntimeError
  else obind (diff_interp (DT en zs r c v)) (fun _ => Ok tt).
Definition read_flav (en zs : list R) (g : h5flav) : outcome fdata :=
  obind (read_total en (h_tot g CCnu)) (fun _ => obind (read_total en (h_tot g NCnu)) (fun _ =>
  obind (read_total en (h_tot g CCnubar)) (fun _ => obind (read_total en (h_tot g NCnubar)) (fun _ =>
  obind (read_diff en zs (h_diff g CCnu)) (fun _ => obind (read_diff en zs (h_diff g NCnu)) (fun _ =>
  obind (read_diff en zs (h_diff g CCnubar)) (fun _ => obind (read_diff en zs (h_diff g NCnubar)) (fun _ =>
  Ok (FD (fun c => TT en (h_tot g c)) (fun c => let '(r, k, v) := h_diff g c in DT en zs r k v)))))))))).
(** ReadHDF, 471-527, files with one group per flavour. Pointers are numbered 0, 1, 2 in the order of reading. *)
Definition read_hdf (F : h5xs) : outcome xsp :=
  match h_en F with
  | [] => UB
  | e0 :: _ =>
      let en := h_en F in let zs := h_zs F in
      obind (read_flav en zs (h_obj F (h_link F electron))) (fun de =>
      let same_m := Nat.eqb (h_link F muon) (h_link F electron) in
      obind (if same_m then Ok de else read_flav en zs (h_obj F (h_link F muon))) (fun dm =>
      let pm := if same_m then 0%nat else 1%nat in
      let same_te := Nat.eqb (h_link F tau) (h_link F electron) in
      let same_tm := Nat.eqb (h_link F tau) (h_link F muon) in
      obind (if same_te then Ok de else if same_tm then Ok dm else read_flav en zs (h_obj F (h_link F tau))) (fun dt =>
      let pt := if same_te then 0%nat else if same_tm then pm else 2%nat in
      Ok (XSP (pow10 e0) (pow10 (last en e0)) (fun f => match f with electron => 0%nat | muon => pm | _ => pt end)
              (fun k => match k with O => de | 1%nat => dm | _ => dt end)))))
  end.

(** ** V1 *)
Definition flav_num (f : flavor) : nat := match f with electron => 0 | muon => 1 | tau => 2 | sterile => 3 end.
Definition type_num (t : nutype) : nat := match t with neutrino => 0 | antineutrino => 1 end.
(** writeTotal and writeDifferential, 814-845: six columns after the energies, antineutrino after neutrino of each flavour. *)
Definition six (v : nutype -> flavor -> R) : list R :=
  flat_map (fun f => map (fun t => v t f) [neutrino; antineutrino]) [electron; muon; tau].
Definition v1_write_sigma (T : v1) (cc : bool) : list (list R) :=
  map (fun i => exp (v_l T i) :: six (fun t f => v_s T cc t f i)) (seq 0 (v_n T)).
Definition v1_write_dsde (T : v1) (cc : bool) : list (list R) :=
  grid2 (v_n T) (v_n T) (fun i j => exp (v_l T i) :: exp (v_l T j) :: six (fun t f => v_d T cc t f i j)).
(** ReadText, 698-757. Rows missing in the differential files and columns missing in any are read out of bounds. *)
Definition cell_at (rows : list (list R)) (i j : nat) : R := nth j (nth i rows []) 0.
Definition wide (k : nat) (rows : list (list R)) : bool := forallb (fun r => Nat.leb k (List.length r)) rows.
Definition v1_read_text (GeV : R) (sCC sNC dCC dNC : list (list R)) : outcome v1 :=
  let n := List.length sCC in
  if negb (Nat.eqb n (List.length sNC)) then Throw RuntimeError
  else if Nat.eqb n 0 then UB
  else if negb (andb (andb (Nat.leb (n * n) (List.length dCC)) (Nat.leb (n * n) (List.length dNC))) (andb (andb (wide 7 sCC) (wide 7 sNC)) (andb (wide 8 dCC) (wide 8 dNC)))) then UB
  else Ok (V1 n (fun i => ln (cell_at sCC i 0))
      (fun (cc : bool) t f i => cell_at (if cc then sCC else sNC) i (1 + 2 * flav_num f + type_num t))
      (fun (cc : bool) t f i j => cell_at (if cc then dCC else dNC) (i * n + j) (2 + 2 * flav_num f + type_num t))
      (cell_at sCC 0 0 * GeV) (cell_at sCC (n - 1) 0 * GeV)).
(** HDF5: WriteHDF 798-806 stores the range and the tables, not the energies; the constructor, 763-791, recomputes them. *)
Definition v1_hdf (GeV : R) (T : v1) : outcome v1 :=
  obind (logspace (v_Emin T / GeV) (v_Emax T / GeV) (v_n T)) (fun l =>
  Ok (V1 (v_n T) (fun i => ln (nth i l 0)) (v_s T) (v_d T) (v_Emin T) (v_Emax T))).
