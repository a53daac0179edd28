(** Model of src/taudecay.cpp and of GlashowResonanceCrossSection (src/xsections.cpp 849-898, xsections.h 515-566). Doubles are reals. *)
From Coq Require Import List Arith Reals.
From Verif Require Import Err.
Import ListNotations.
Local Open Scope R_scope.

(** The parameters of a TauDecaySpectra object, taudecay.h 62-85. *)
Record tau_params := TauParams { polar : R; RPion : R; RRho : R; RA1 : R; BrLepton : R; BrPion : R; BrRho : R; BrRA1 : R; BrHadron : R }.
(** SetParameters, 122-126 *)
Definition defaults : tau_params :=
  TauParams (-1) (7856 / 100000 * (7856 / 100000)) (43335 / 100000 * (43335 / 100000)) (70913 / 100000 * (70913 / 100000))
            (18 / 100) (12 / 100) (26 / 100) (13 / 100) (13 / 100).

Section Decay.
Variable P : tau_params.
Definition positive (x : R) : bool := if Rlt_dec 0 x then true else false.
(** 39-45 *)
Definition to_lepton (Etau Enu : R) : R :=
  let z := Enu / Etau in
  let g0 := 5 / 3 - 3 * z ^ 2 + 4 / 3 * z ^ 3 in
  let g1 := 1 / 3 - 3 * z ^ 2 + 8 / 3 * z ^ 3 in
  g0 + polar P * g1.
(** 47-61 *)
Definition to_pion (Etau Enu : R) : R :=
  let z := Enu / Etau in
  let g0 := if positive (1 - RPion P - z) then 1 / (1 - RPion P) else 0 in
  let g1 := if positive (1 - RPion P - z) then - (2 * z - 1 + RPion P) / (1 - RPion P) ^ 2 else 0 in
  g0 + polar P * g1.
(** 63-77 and 79-93, which differ in the mass ratio only. *)
Definition to_vector (ratio Etau Enu : R) : R :=
  let z := Enu / Etau in
  let g0 := if positive (1 - ratio - z) then 1 / (1 - ratio) else 0 in
  let g1 := if positive (1 - ratio - z) then - ((2 * z - 1 + ratio) / (1 - ratio)) * ((1 - 2 * ratio) / (1 + 2 * ratio)) else 0 in
  g0 + polar P * g1.
Definition to_rho : R -> R -> R := to_vector (RRho P).
Definition to_a1 : R -> R -> R := to_vector (RA1 P).
(** 95-106 *)
Definition to_hadron (Etau Enu : R) : R :=
  let z := Enu / Etau in
  let g0 := if positive (3 / 10 - z) then 1 / (3 / 10) else 0 in
  let g1 := 0 in
  g0 + polar P * g1.
(** 108-118 *)
Definition to_all (Etau Enu : R) : R :=
  0 + 2 * BrLepton P * to_lepton Etau Enu + BrPion P * to_pion Etau Enu + BrRho P * to_rho Etau Enu + BrRA1 P * to_a1 Etau Enu + BrHadron P * to_hadron Etau Enu.
End Decay.

(** Init, 132-158, and the accessors, 162-184. The tables have extents 2, n, n; the last argument of an accessor is not checked. Energies in eV,
    entries per GeV. *)
Inductive tau_table := NuAll | NuLep | LeAll | LeLep.
Definition GeV_eV : R := 10 ^ 9.
Definition tau_entry (w : tau_table) (E1 E2 : R) : R :=
  let e1 := E1 / GeV_eV in let e2 := E2 / GeV_eV in
  match w with
  | LeAll => to_all defaults e1 e2 * e2 / (e1 * e1)
  | LeLep => BrLepton defaults * to_lepton defaults e1 e2 * e2 / (e1 * e1)
  | NuAll => to_all defaults e1 e2 / e1
  | NuLep => BrLepton defaults * to_lepton defaults e1 e2 / e1
  end.
Definition tau_lookup (E : list R) (w : tau_table) (i j type : nat) : outcome R :=
  if orb (Nat.leb (List.length E) i) (Nat.leb (List.length E) j) then Throw RuntimeError
  else if Nat.ltb type 2 then Ok (tau_entry w (nth i E 0) (nth j E 0)) else UB.

(** ** Glashow resonance *)
Inductive flavor := electron | muon | tau | sterile.
Inductive nutype := neutrino | antineutrino.
Inductive current := CC | NC | GR.
Definition is_resonance (f : flavor) (t : nutype) (c : current) : bool :=
  match f, t, c with electron, antineutrino, GR => true | _, _, _ => false end.
Section Glashow.
(** squids::Const: Fermi constant, lepton masses, units. *)
Variables GF cm me mmu GeV : R.
Definition fermi_scale : R := (GF / cm) ^ 2 * me / PI.
Definition M_W : R := 80385 / 1000 * GeV.
Definition W_total : R := 2085 / 1000 * GeV.
Definition B_Electron : R := 1071 / 10000.
Definition B_Muon : R := 1063 / 10000.
Definition B_Tau : R := 1138 / 10000.
Definition B_Hadronic : R := 6741 / 10000.
(** h 540-547 *)
Definition branching (f : flavor) : R := match f with electron => B_Electron | muon => B_Muon | tau => B_Tau | sterile => 0 end.
(** 863-876 *)
Definition gr_total (E : R) (f : flavor) (t : nutype) (c : current) : R :=
  if is_resonance f t c then
    2 * fermi_scale * E * (1 - (mmu * mmu - me * me) / (2 * me * E)) ^ 2 / ((1 - 2 * me * E / (M_W * M_W)) ^ 2 + (W_total / M_W) ^ 2) / B_Muon / 3
  else 0.
(** 878-888 *)
Definition gr_single (E1 E2 : R) (f : flavor) (t : nutype) (c : current) : R :=
  if is_resonance f t c then
    if Rlt_dec E1 E2 then 0
    else let xl := E2 / E1 in B_Muon * 3 * gr_total E1 f t c * (xl * xl) / E1 * GeV
  else 0.
End Glashow.
