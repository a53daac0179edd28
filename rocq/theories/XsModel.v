(** Model of cross-section lookups: NeutrinoDISCrossSectionsFromTables (src/xsections.cpp 199-267), its V1 predecessor (588-696) and
    CrossSectionLibrary (xsections.h 598-626, xsections.cpp 900-910). Doubles are reals; [tiny] is std::numeric_limits<double>::min(). *)
From Coq Require Import List Arith ZArith Reals Bool.
From Verif Require Import Err AkimaModel BicubicModel TauModel.
Import ListNotations.
Local Open Scope R_scope.

Definition rlt (x y : R) : bool := if Rlt_dec x y then true else false.
Definition rle (x y : R) : bool := if Rle_dec x y then true else false.
Definition log10 (x : R) : R := ln x / ln 10.
Definition pow10 (x : R) : R := Rpower 10 x.
Definition is_sterile (f : flavor) : bool := match f with sterile => true | _ => false end.
Definition is_cc (c : current) : bool := match c with CC => true | _ => false end.

Section Range.
Variables GeV tiny : R.
Variables Emin Emax : R.
(** The checks common to both TotalCrossSection functions (199-213, 605-621). [core] is the lookup in the table. Below Emin the function
    calls itself with Emin, hence [fuel] of two levels. *)
Fixpoint total_checks (fuel : nat) (core : R -> outcome R) (E : R) (f : flavor) : outcome R :=
  if is_sterile f then Ok 0
  else if rlt Emax E then Throw RuntimeError
  else if andb (rlt E (10 * GeV)) (rlt (10 * GeV) Emin) then Ok tiny
  else if rlt E Emin then
    match fuel with O => UB | S fuel' => obind (total_checks fuel' core Emin f) (fun v => Ok (v * (E / Emin))) end
  else core E.
(** 222-231 and 635-645; the new class treats E1 = Emin as below. *)
Definition single_checks (below : bool) (core : outcome R) (E1 : R) (f : flavor) : outcome R :=
  if is_sterile f then Ok 0 else if rlt Emax E1 then Throw RuntimeError else if below then Ok tiny else core.
End Range.

(** ** V1 *)
(** Tables, h 408-433: [v_n] is div, the number of energies; the data are indexed by current (CC or not), type, flavour and energies. *)
Record v1 := V1 { v_n : nat; v_l : nat -> R; v_s : bool -> nutype -> flavor -> nat -> R; v_d : bool -> nutype -> flavor -> nat -> nat -> R; v_Emin : R; v_Emax : R }.
(** static_cast<size_t>: truncation; -1 and below is undefined. The upper limit is left out: logarithms of doubles are small. *)
Definition to_size (q : R) : outcome nat := if rle q (-1) then UB else Ok (Z.to_nat (Int_part q)).
Definition at1 (n : nat) (f : nat -> R) (i : nat) : outcome R := if Nat.ltb i n then Ok (f i) else UB.
Definition at2 (n : nat) (f : nat -> nat -> R) (i j : nat) : outcome R := if andb (Nat.ltb i n) (Nat.ltb j n) then Ok (f i j) else UB.
(** 588-590 *)
Definition lin_inter (x xM xP yM yP : R) : R := yM + (yP - yM) * (x - xM) / (xP - xM).
(** 593-603 *)
Definition tri_inter (x y x1 y1 z1 x2 y2 z2 x3 y3 z3 : R) : R :=
  let denom := (y2 - y3) * (x1 - x3) + (x3 - x2) * (y1 - y3) in
  let l1 := ((y2 - y3) * (x - x3) + (x3 - x2) * (y - y3)) / denom in
  let l2 := ((y3 - y1) * (x - x3) + (x1 - x3) * (y - y3)) / denom in
  let l3 := 1 - (l1 + l2) in
  l1 * z1 + l2 * z2 + l3 * z3.
Section V1.
Variables GeV tiny : R.
Variable T : v1.
Notation n := (v_n T).
(** 622-632 *)
Definition v1_core (t : nutype) (f : flavor) (c : current) (E : R) : outcome R :=
  let logE := ln (E / GeV) in
  obind (at1 n (v_l T) 1) (fun l1 => obind (at1 n (v_l T) 0) (fun l0 =>
  obind (to_size ((logE - l0) / (l1 - l0))) (fun idx =>
  let idx := if Nat.eqb idx n then (idx - 1)%nat else idx in
  let s := v_s T (is_cc c) t f in
  obind (at1 n (v_l T) idx) (fun xM => obind (at1 n (v_l T) (S idx)) (fun xP => obind (at1 n s idx) (fun yM => obind (at1 n s (S idx)) (fun yP =>
  Ok (lin_inter logE xM xP yM yP)))))))).
Definition v1_total (E : R) (f : flavor) (t : nutype) (c : current) : outcome R :=
  total_checks GeV tiny (v_Emin T) (v_Emax T) 1 (v1_core t f c) E f.
(** 647-695 *)
Definition v1_single_core (t : nutype) (f : flavor) (c : current) (E1 E2 : R) : outcome R :=
  let logE1 := ln (E1 / GeV) in let logE2 := ln (E2 / GeV) in
  obind (at1 n (v_l T) 1) (fun l1 => obind (at1 n (v_l T) 0) (fun l0 =>
  obind (to_size ((logE1 - l0) / (l1 - l0))) (fun i =>
  obind (to_size ((logE2 - l0) / (l1 - l0))) (fun j =>
  if orb (orb (Nat.ltb (n - 1) j) (Nat.ltb (n - 1) i)) (rle E1 E2) then Ok 0 else
  match c with
  | GR => Throw RuntimeError
  | _ =>
      let d := v_d T (is_cc c) t f in
      obind (at2 n d i j) (fun mm => obind (at2 n d i (S j)) (fun mp =>
      obind (at1 n (v_l T) j) (fun y0 => obind (at1 n (v_l T) (S j)) (fun y1 =>
      if Nat.eqb i (n - 1) then Ok (lin_inter logE2 y0 y1 mm mp) else
      obind (at2 n d (S i) j) (fun pm => obind (at2 n d (S i) (S j)) (fun pp =>
      obind (at1 n (v_l T) i) (fun x0 => obind (at1 n (v_l T) (S i)) (fun x1 =>
      if andb (Nat.eqb i j) (if Req_EM_T mp 0 then true else false) then Ok (tri_inter logE1 logE2 x0 y0 mm x1 y0 pm x1 y1 pp)
      else Ok (lin_inter logE1 x0 x1 (lin_inter logE2 y0 y1 mm mp) (lin_inter logE2 y0 y1 pm pp))))))))))
  end)))).
Definition v1_single (E1 E2 : R) (f : flavor) (t : nutype) (c : current) : outcome R :=
  single_checks tiny (v_Emax T) (rlt E1 (v_Emin T)) (v1_single_core t f c E1 E2) E1 f.
End V1.

(** ** The current class *)
(** Tables as the interpolators keep them: abscissas (log10 of energies in eV) and ordinates; coordinates and data[y][x]. *)
Record total_tab := TT { tt_x : list R; tt_y : list R }.
Record diff_tab := DT { dt_x : list R; dt_y : list R; dt_rows : nat; dt_cols : nat; dt_z : list R }.
Inductive chan := CCnu | NCnu | CCnubar | NCnubar.
(** 216-218, 235-237: anything that is not CC is read from the NC table. *)
Definition chan_of (t : nutype) (c : current) : chan :=
  match t with neutrino => if is_cc c then CCnu else NCnu | antineutrino => if is_cc c then CCnubar else NCnubar end.
Record fdata := FD { f_tot : chan -> total_tab; f_diff : chan -> diff_tab }.
(** xsData: which flavours have data, h 296-300. *)
Record xs := XS { x_Emin : R; x_Emax : R; x_flavor : flavor -> option fdata }.
Definition lcol (l : list R) (i : nat) : R := nth i l 0.
Definition tot_spline (t : total_tab) : outcome spline := akima (lcol (tt_x t)) (lcol (tt_y t)) (List.length (tt_x t)).
Definition diff_interp (t : diff_tab) : outcome bicubic :=
  bicubic_make (fun j i => nth (j * dt_cols t + i) (dt_z t) 0) (dt_rows t) (dt_cols t) (lcol (dt_x t)) (List.length (dt_x t)) (lcol (dt_y t)) (List.length (dt_y t)).
Section DIS.
Variables GeV tiny : R.
Variable X : xs.
(** getFlavor, 181-187 *)
Definition get_flavor (f : flavor) : outcome fdata := match x_flavor X f with Some d => Ok d | None => Throw RuntimeError end.
Definition dis_core (t : nutype) (f : flavor) (c : current) (E : R) : outcome R :=
  obind (get_flavor f) (fun d => obind (tot_spline (f_tot d (chan_of t c))) (fun s => obind (spline_eval s (log10 E)) (fun v => Ok (pow10 v)))).
Definition dis_total (E : R) (f : flavor) (t : nutype) (c : current) : outcome R :=
  total_checks GeV tiny (x_Emin X) (x_Emax X) 1 (dis_core t f c) E f.
(** 233-245 *)
Definition dis_single_core (t : nutype) (f : flavor) (c : current) (E1 E2 : R) : outcome R :=
  obind (get_flavor f) (fun d => obind (diff_interp (f_diff d (chan_of t c))) (fun b =>
  let z := (E2 - x_Emin X) / (E1 - x_Emin X) in
  let val := bicubic_eval b (log10 E1) z in
  let val := if rle E2 (x_Emin X) then let alt := bicubic_eval b (log10 E1) 0 in if rlt alt val then alt else val else val in
  Ok (pow10 val / (E1 / GeV)))).
Definition dis_single (E1 E2 : R) (f : flavor) (t : nutype) (c : current) : outcome R :=
  single_checks tiny (x_Emax X) (rle E1 (x_Emin X)) (dis_single_core t f c E1 E2) E1 f.
(** AverageSingleDifferentialCrossSection, 247-267; [fastInt] is that of QuadModel with its tolerance, as a parameter. *)
Variable fastInt : (R -> outcome R) -> R -> R -> outcome R.
Definition dis_average (E1 lo hi : R) (f : flavor) (t : nutype) (c : current) : outcome R :=
  single_checks tiny (x_Emax X) (rle E1 (x_Emin X))
    (let (lo, hi) := if rlt hi lo then (hi, lo) else (lo, hi) in
     if Req_EM_T lo hi then dis_single E1 hi f t c
     else obind (fastInt (fun e => dis_single E1 e f t c) lo hi) (fun v => Ok (v / (hi - lo)))) E1 f.
End DIS.

(** ** CrossSectionLibrary *)
Section Library.
Context {C : Type}.
(** The map from target codes; pointers may be null. *)
Definition library := list (Z * option C).
Fixpoint find_target (l : library) (t : Z) : option (option C) := match l with [] => None | (u, c) :: r => if Z.eqb t u then Some c else find_target r t end.
(** 900-910 *)
Definition has_target (l : library) (t : Z) : bool := match find_target l t with Some _ => true | None => false end.
Definition xs_for (l : library) (t : Z) : option C := match find_target l t with Some c => c | None => None end.
(** addTarget, h 608-618: result and library afterwards. *)
Definition add_target (l : library) (t : Z) (c : option C) : outcome unit * library :=
  if has_target l t then (Throw RuntimeError, l) else (Ok tt, (t, c) :: l).
Definition add_all (l : library) (a : list (Z * option C)) : library := fold_left (fun l p => snd (add_target l (fst p) (snd p))) a l.
End Library.
