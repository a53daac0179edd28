(** The tables of interactions made from the cross sections of a library: the
    choice of targets in nuSQUIDS::InitializeInteractions
    (src/nuSQuIDS.cpp:995-1012) and nuSQUIDS::GetCrossSections
    (src/nuSQuIDS.cpp:1046-1194).

    Simplified: cross sections are real numbers, infinities or NaN, without
    rounding or overflow; a zero denominator counts as positive; the text of
    error messages is left out.  Every array entry has its own place in a
    store; an entry not yet written there is [None], and reading it is
    undefined behaviour. *)
From Coq Require Import Reals ZArith List Arith Bool.
From Verif Require Import Err.
Import ListNotations.
Open Scope R_scope.

Inductive xval := Num (r : R) | PInf | NInf | NaN.

(** product with a unit, which is positive *)
Definition xmul (v : xval) (u : R) : xval := match v with Num r => Num (r * u) | v => v end.
Definition xdiv (a b : xval) : xval :=
  match a, b with
  | Num a, Num b =>
    if Req_EM_T b 0 then (if Rlt_dec 0 a then PInf else if Rlt_dec a 0 then NInf else NaN) else Num (a / b)
  | Num _, (PInf | NInf) => Num 0
  | PInf, Num b => if Rlt_dec b 0 then NInf else PInf
  | NInf, Num b => if Rlt_dec b 0 then PInf else NInf
  | _, _ => NaN
  end.
Definition is_zero (v : xval) : bool := match v with Num r => if Req_EM_T r 0 then true else false | _ => false end.
(** 1068: not negative, not infinite, a number *)
Definition sane (v : xval) : bool := match v with Num r => if Rlt_dec r 0 then false else true | _ => false end.

(** include/nuSQuIDS/xsections.h:45-49 *)
Inductive flavour := Electron | Muon | Tau | Sterile.
Inductive current := CC | NC | GR.

(** the functions of a NeutrinoCrossSections object (xsections.h:57-97); the
    [bool] tells antineutrinos *)
Record xs := Xs {
  x_total : R -> flavour -> bool -> current -> outcome xval;
  x_diff : R -> R -> flavour -> bool -> current -> outcome xval;
  x_avtotal : R -> R -> flavour -> bool -> current -> outcome xval;
  x_avdiff : R -> R -> R -> flavour -> bool -> current -> outcome xval }.

(** entries of the arrays; [TNC], [TCC] and [TGR] are those of the temporary
    arrays of differential cross sections, made anew for every target *)
Inductive key :=
| SCC (t r f e : nat) | SNC (t r f e : nat) | DCC (t r f e e' : nat) | DNC (t r f e e' : nat)
| SGR (e : nat) | DGR (e e' : nat) | TALL (r e e' : nat) | TLEP (r e e' : nat)
| TNC (t r f e e' : nat) | TCC (t r f e e' : nat) | TGR (e e' : nat).
Definition key_eq_dec (a b : key) : {a = b} + {a <> b}.
Proof. decide equality; apply Nat.eq_dec. Defined.

Definition store := key -> option xval.
Definition put (k : key) (v : xval) (s : store) : store := fun k' => if key_eq_dec k' k then Some v else s k'.
Definition get (k : key) (s : store) : outcome xval := match s k with Some v => Ok v | None => UB end.

(** for(i = lo; i < lo + n; i++) *)
Fixpoint loop (n lo : nat) (body : nat -> store -> outcome store) (s : store) : outcome store :=
  match n with
  | O => Ok s
  | S n' => obind (body lo s) (loop n' (S lo) body)
  end.

(** the codes of the targets, xsections.h:572-582 *)
Definition proton : Z := 2212.
Definition neutron : Z := 2112.
Definition isoscalar_nucleon : Z := 81.
Definition electron : Z := 11.

Inductive nutype := Neutrino | Antineutrino | Both.
Definition nrhos (nt : nutype) : nat := match nt with Both => 2 | _ => 1 end.

Section Tables.
Variable lib : Z -> option xs.
Variable tau_all tau_lep : nat -> nat -> nat -> xval.   (* tdc.dNdEnu_All, tdc.dNdEnu_Lep *)
Variables cm2 cm2GeV GeVm1 : R.
Variable nt : nutype.
Variables numneu ne : nat.
Variable E : nat -> R.
Variable glashow : bool.
(** static_cast of an integer beyond the enumerators: an unspecified value *)
Variable odd : nat -> flavour.

Definition cast (f : nat) : flavour := match f with 0 => Electron | 1 => Muon | 2 => Tau | 3 => Sterile | _ => odd f end.

(** 1056-1064, 1166-1174 *)
Definition anti (r : nat) : bool := match nt with Neutrino => false | Antineutrino => true | Both => Nat.eqb r 1 end.

(** 1066-1078 *)
Definition validate (f : nat) (v : xval) : outcome unit :=
  if Nat.ltb f 3 && negb (sane v) then Throw RuntimeError else Ok tt.
(** one assignment and the check after it *)
Definition assign (k : key) (f : nat) (v : xval) (s : store) : outcome store :=
  obind (validate f v) (fun _ => Ok (put k v s)).

(** 1094-1116 *)
Definition cell (x : xs) (t r f e1 : nat) (s : store) : outcome store :=
  let fl := cast f in let a := anti r in
  obind (x_diff x (E e1) (E 0%nat) fl a NC) (fun v =>
  obind (assign (TNC t r f e1 0) f (xmul v cm2GeV) s) (fun s =>
  obind (x_diff x (E e1) (E 0%nat) fl a CC) (fun v =>
  obind (assign (TCC t r f e1 0) f (xmul v cm2GeV) s) (fun s =>
  obind (loop (e1 - 1) 1 (fun e2 s =>
    obind (x_avdiff x (E e1) (E (e2 - 1)%nat) (E e2) fl a NC) (fun v =>
    obind (assign (TNC t r f e1 e2) f (xmul v cm2GeV) s) (fun s =>
    obind (x_avdiff x (E e1) (E (e2 - 1)%nat) (E e2) fl a CC) (fun v =>
    assign (TCC t r f e1 e2) f (xmul v cm2GeV) s)))) s) (fun s =>
  obind (if Nat.ltb 0 e1 then x_avtotal x (E (e1 - 1)%nat) (E e1) fl a CC else x_total x (E e1) fl a CC) (fun vc =>
  obind (if Nat.ltb 0 e1 then x_avtotal x (E (e1 - 1)%nat) (E e1) fl a NC else x_total x (E e1) fl a NC) (fun vn =>
  let s := put (SNC t r f e1) (xmul vn cm2) (put (SCC t r f e1) (xmul vc cm2) s) in
  obind (validate f (xmul vc cm2)) (fun _ =>
  obind (validate f (xmul vn cm2)) (fun _ => Ok s))))))))).

(** 1126-1130, 1131-1136 *)
Definition ratio (kt ks kd : key) (f : nat) (s : store) : outcome store :=
  obind (get kt s) (fun d =>
  if is_zero d then Ok (put kd (Num 0) s)
  else obind (get ks s) (fun g => assign kd f (xdiv d g) s)).

(** 1084-1144 *)
Definition target (code : Z) (t : nat) (s : store) : outcome store :=
  match lib code with
  | None => UB
  | Some x =>
    obind (loop (nrhos nt) 0 (fun r => loop numneu 0 (fun f => loop ne 0 (fun e1 => cell x t r f e1))) s) (fun s =>
    loop (nrhos nt) 0 (fun r => loop numneu 0 (fun f => loop ne 0 (fun e1 => loop e1 0 (fun e2 s =>
      obind (ratio (TNC t r f e1 e2) (SNC t r f e1) (DNC t r f e1 e2) f s) (fun s =>
      ratio (TCC t r f e1 e2) (SCC t r f e1) (DCC t r f e1 e2) f s))))) s)
  end.
Fixpoint all_targets (l : list Z) (t : nat) (s : store) : outcome store :=
  match l with [] => Ok s | c :: l' => obind (target c t s) (all_targets l' (S t)) end.

(** 1147-1165 *)
Definition has_glashow : bool := glashow && match nt with Neutrino => false | _ => true end.
Definition resonance (s : store) : outcome store :=
  if has_glashow then
    match lib electron with
    | None => Throw RuntimeError
    | Some x =>
      obind (loop ne 0 (fun e1 s =>
        obind (if Nat.ltb 0 e1 then x_avtotal x (E (e1 - 1)%nat) (E e1) Electron true GR else x_total x (E e1) Electron true GR) (fun v =>
        let s := put (SGR e1) (xmul v cm2) s in
        obind (x_diff x (E e1) (E 0%nat) Electron true GR) (fun v =>
        let s := put (TGR e1 0) (xmul v cm2GeV) s in
        loop (e1 - 1) 1 (fun e2 s =>
          obind (x_avdiff x (E e1) (E (e2 - 1)%nat) (E e2) Electron true GR) (fun v => Ok (put (TGR e1 e2) (xmul v cm2GeV) s))) s))) s) (fun s =>
      loop ne 0 (fun e1 => loop e1 0 (fun e2 s =>
        obind (get (TGR e1 e2) s) (fun d => obind (get (SGR e1) s) (fun g => Ok (put (DGR e1 e2) (xdiv d g) s))))) s)
    end
  else Ok s.

(** 1180-1188 *)
Definition decays (s : store) : outcome store :=
  loop (nrhos nt) 0 (fun r => loop ne 0 (fun e1 => loop e1 0 (fun e2 s =>
    Ok (put (TLEP r e1 e2) (xmul (tau_lep e1 e2 (if anti r then 1 else 0)%nat) GeVm1)
         (put (TALL r e1 e2) (xmul (tau_all e1 e2 (if anti r then 1 else 0)%nat) GeVm1) s))))) s.

(** 995-1012 *)
Definition has (c : Z) : bool := match lib c with Some _ => true | None => false end.
Definition choose_targets : outcome (list Z) :=
  if has proton && has neutron then Ok [proton; neutron]
  else if has isoscalar_nucleon then Ok [isoscalar_nucleon]
  else Throw RuntimeError.

(** 1046-1194 *)
Definition get_cross_sections (targets : list Z) (s : store) : outcome store :=
  obind (all_targets targets 0 s) (fun s => obind (resonance s) decays).
(** 991-1030, from arrays with contents [s] *)
Definition make (s : store) : outcome (list Z * store) :=
  obind choose_targets (fun l => obind (get_cross_sections l s) (fun s => Ok (l, s))).

End Tables.
