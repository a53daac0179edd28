(** A library of tabulated DIS cross sections as
    nuSQUIDS::InitializeInteractions and GetCrossSections
    (src/nuSQuIDS.cpp:991-1194, XsTabModel) use it: the four functions of a
    NeutrinoDISCrossSectionsFromTables object (src/xsections.cpp:190-267,
    XsModel), the averages made with fastInt (src/xsections.cpp:50-91,
    QuadModel).

    Simplified: real numbers without rounding.  An integrand which throws is
    taken to be zero there, so an average over such energies does not throw
    here; the theorems are about energies in range. *)
From Coq Require Import Reals ZArith.
From Verif Require Import Err TauModel XsModel QuadModel.
From Verif Require XsTabModel.
Open Scope R_scope.

(** the enumerations of include/nuSQuIDS/xsections.h:45-49 in the two models *)
Definition fl_of (f : XsTabModel.flavour) : flavor :=
  match f with XsTabModel.Electron => electron | XsTabModel.Muon => muon | XsTabModel.Tau => tau | XsTabModel.Sterile => sterile end.
Definition ty_of (a : bool) : nutype := if a then antineutrino else neutrino.
Definition cur_of (i : XsTabModel.current) : current :=
  match i with XsTabModel.CC => CC | XsTabModel.NC => NC | XsTabModel.GR => GR end.

Definition or_zero (o : outcome R) : R := match o with Ok v => v | _ => 0 end.
Definition num (o : outcome R) : outcome XsTabModel.xval := obind o (fun v => Ok (XsTabModel.Num v)).

Section Library.
Variables GeV tiny : R.
(** turns after which an integration counts as not finished *)
Variable fuel : nat.

(** fastInt(integrand,EMin,EMax,1e-3), xsections.cpp:100, 107 and 266 *)
Definition fast_out (g : R -> outcome R) (a b : R) : outcome R :=
  match fast_int (fun e => or_zero (g e)) fuel a b (1 / 1000) with Some o => o | None => UB end.

(** NeutrinoCrossSections::AverageTotalCrossSection, xsections.cpp:96-101 *)
Definition average_total (total : R -> outcome R) (lo hi : R) : outcome R :=
  obind (fast_out total lo hi) (fun v => Ok (v / (hi - lo))).

(** the virtual functions of the object with tables [X] *)
Definition dis_xs (X : xs) : XsTabModel.xs := XsTabModel.Xs
  (fun e f a i => num (dis_total GeV tiny X e (fl_of f) (ty_of a) (cur_of i)))
  (fun e e' f a i => num (dis_single GeV tiny X e e' (fl_of f) (ty_of a) (cur_of i)))
  (fun lo hi f a i => num (average_total (fun e => dis_total GeV tiny X e (fl_of f) (ty_of a) (cur_of i)) lo hi))
  (fun e lo hi f a i => num (dis_average GeV tiny X fast_out e lo hi (fl_of f) (ty_of a) (cur_of i))).

(** a library with tables for protons and neutrons and perhaps with other targets *)
Definition dis_lib (Xp Xn : xs) (other : Z -> option XsTabModel.xs) (c : Z) : option XsTabModel.xs :=
  if Z.eqb c XsTabModel.proton then Some (dis_xs Xp)
  else if Z.eqb c XsTabModel.neutron then Some (dis_xs Xn)
  else other c.

(** the virtual functions of GlashowResonanceCrossSection, xsections.cpp:863-888
    (TauModel); its averages are those of the base class, 96-108 *)
Variables GF cm me mmu : R.
Definition gr_xs : XsTabModel.xs := XsTabModel.Xs
  (fun e f a i => num (Ok (gr_total GF cm me mmu GeV e (fl_of f) (ty_of a) (cur_of i))))
  (fun e e' f a i => num (Ok (gr_single GF cm me mmu GeV e e' (fl_of f) (ty_of a) (cur_of i))))
  (fun lo hi f a i => num (average_total (fun e => Ok (gr_total GF cm me mmu GeV e (fl_of f) (ty_of a) (cur_of i))) lo hi))
  (fun e lo hi f a i => num (average_total (fun e' => Ok (gr_single GF cm me mmu GeV e e' (fl_of f) (ty_of a) (cur_of i))) lo hi)).

(** loadDefaultCrossSections, xsections.cpp:912-924, with the tables [Xp] and [Xn] of its two files *)
Definition default_lib (Xp Xn : xs) : Z -> option XsTabModel.xs :=
  dis_lib Xp Xn (fun c => if Z.eqb c XsTabModel.electron then Some gr_xs else None).
End Library.
