(** Two extensions of nuSQUIDS in the examples: non-standard interactions
    (examples/NSI/NSI.h, the same class in examples/Atm_BSM/NSI.h) and Lorentz
    violation (examples/LV/LV.h).  Both keep an operator given between flavours,
    rotated to the mass states, turn it with the vacuum hamiltonian before each
    derivative and add it to the interaction hamiltonian.

    Three flavours (NSI.h:56 asserts it, the matrices of LV.h are 3x3).
    Of SQuIDS we take RotateToB1 and Evolve as in FlavorModel.v; [order] is the
    order of its rotations.  Files: the group user_parameters as the objects in
    it with their attributes; H5LTset_attribute_double on an object that does not
    exist fails, H5LTget_attribute_double then leaves its variable as it was, and
    neither result is looked at. *)
From Coq Require Import Reals List Arith Bool ZArith.
From Verif Require Import CMatrix FlavorModel.
Import ListNotations.
Open Scope R_scope.

(** ** Common *)
Definition angles := nat -> nat -> R.
Definition set2 (f : angles) (i j : nat) (x : R) : angles := fun a b => if Nat.eqb a i && Nat.eqb b j then x else f a b.
(** RotateToB1(params): the phases as they are in params *)
Definition to_mass (order : list (nat * nat)) (th dl : angles) (M : mat) : mat := rotate_b1 3 (mixing 3 th dl order) M.
(** sign of the term, NSI.h:41-47, LV.h:68-72 *)
Definition anti_type (nt : nutype) (rho : nat) : bool :=
  match nt with Both => Nat.eqb rho 1 | Antineutrino => true | Neutrino => false end.

(** the group user_parameters *)
Definition file := list (nat * (nat * R)).
Definition objects := list nat.
Definition set_attr (objs : objects) (o a : nat) (v : R) (f : file) : file :=
  if existsb (Nat.eqb o) objs then (o, (a, v)) :: f else f.
Fixpoint get_attr (f : file) (o a : nat) : option R :=
  match f with
  | [] => None
  | (o', (a', v)) :: f' => if Nat.eqb o' o && Nat.eqb a' a then Some v else get_attr f' o a
  end.

(** ** NSI.h *)
Record nsi := Nsi {
  ns_eps : R;                 (* epsilon_mutau *)
  ns_op : mat;                (* NSI *)
  ns_evol : nat -> mat;       (* NSI_evol *)
  ns_len : nat;               (* NSI_evol.size() *)
  ns_th : angles; ns_dl : angles;  (* params *)
  ns_ne : nat
}.
(** 58-62, 85-88 *)
Definition mutau (eps : R) : mat := fun a b =>
  match a, b with 2%nat, 1%nat => rtc eps | 1%nat, 2%nat => cconj (rtc eps) | _, _ => c0 end.
(** 53-78; [th0], [dl0] the defaults of the base class *)
Definition nsi_make (order : list (nat * nat)) (eps : R) (ne : nat) (th0 dl0 : angles) (a01 a02 a12 : R) : nsi :=
  let th := set2 (set2 (set2 th0 0 1 a01) 0 2 a02) 1 2 a12 in
  Nsi eps (to_mass order th dl0 (mutau eps)) (fun _ => mzero) ne th dl0 ne.
(** 80-90 *)
Definition set_mutau (order : list (nat * nat)) (eps : R) (o : nsi) : nsi :=
  Nsi eps (to_mass order (ns_th o) (ns_dl o) (mutau eps)) (ns_evol o) (ns_len o) (ns_th o) (ns_dl o) (ns_ne o).
(** nuSQuIDS.cpp:2845-2866, not overridden *)
Definition nsi_angle (i j : nat) (x : R) (o : nsi) : nsi :=
  Nsi (ns_eps o) (ns_op o) (ns_evol o) (ns_len o) (set2 (ns_th o) i j x) (ns_dl o) (ns_ne o).
Definition nsi_phase (i j : nat) (x : R) (o : nsi) : nsi :=
  Nsi (ns_eps o) (ns_op o) (ns_evol o) (ns_len o) (ns_th o) (set2 (ns_dl o) i j x) (ns_ne o).
(** 13-20: AddToPreDerive; None: written outside the vector *)
Definition nsi_prederive (H : nat -> mat) (dt : R) (o : nsi) : option nsi :=
  if Nat.leb (ns_ne o) (ns_len o) then
    Some (Nsi (ns_eps o) (ns_op o) (fun ei => if Nat.ltb ei (ns_ne o) then evolve (H ei) dt (ns_op o) else ns_evol o ei)
           (ns_len o) (ns_th o) (ns_dl o) (ns_ne o))
  else None.
(** 35-51: what is added to nuSQUIDS::HI; [cc] the potential of the electrons *)
Definition nsi_term (nt : nutype) (cc : R) (o : nsi) (ei rho : nat) : mat :=
  let p := mscale (3 * cc) (ns_evol o ei) in
  if anti_type nt rho then mscale (-1) p else p.
Definition nsi_hi (nt : nutype) (b : basis) (H0 : mat) (cc nc : R) (Pt : nat -> mat) (o : nsi) (ei rho : nat) : mat :=
  let sg := if anti_type nt rho then -1 else 1 in
  mplus (hi b H0 (sg * cc) (sg * nc) Pt) (nsi_term nt cc o ei rho).
(** 29-33, 22-27; object 0 is "nsi", attribute 0 "mu_tau" *)
Definition nsi_write (o : nsi) (f : file) : file := set_attr [0%nat] 0 0 (ns_eps o) f.
(** reading a state: the base class sets grid and parameters (nuSQUIDS.cpp:2169-2218), then 22-27 *)
Definition nsi_read (ne : nat) (th dl : angles) (f : file) (o : nsi) : nsi :=
  Nsi (match get_attr f 0 0 with Some x => x | None => ns_eps o end) (ns_op o) (ns_evol o) (ns_len o) th dl ne.

(** ** LV.h *)
Record lv := Lv {
  lv_set : bool;              (* lv_parameters_set *)
  lv_pow : Z;                 (* n_ *)
  lv_op : mat;                (* LVP *)
  lv_evol : nat -> mat;       (* LVP_evol *)
  lv_th : angles; lv_dl : angles; lv_nt : nutype
}.
(** 104-108, the two complex parameters *)
Definition lv_matrix (emu mutau : C) : mat := fun a b =>
  match a, b with
  | 1%nat, 0%nat => emu | 0%nat, 1%nat => cconj emu
  | 2%nat, 1%nat => mutau | 1%nat, 2%nat => cconj mutau
  | _, _ => c0
  end.
(** 91-99 *)
Definition lv_make (th dl : angles) (nt : nutype) : lv := Lv false 1 mzero (fun _ => mzero) th dl nt.
(** 101-136: the three setters end in the same lines *)
Definition lv_operator (order : list (nat * nat)) (M : mat) (o : lv) : lv :=
  Lv true (lv_pow o) (to_mass order (lv_th o) (lv_dl o) M) (lv_evol o) (lv_th o) (lv_dl o) (lv_nt o).
Definition lv_params (order : list (nat * nat)) (emu mutau : C) (o : lv) : lv := lv_operator order (lv_matrix emu mutau) o.
(** 138-140 *)
Definition lv_power (n : Z) (o : lv) : lv := Lv (lv_set o) n (lv_op o) (lv_evol o) (lv_th o) (lv_dl o) (lv_nt o).
(** 142-150 *)
Definition lv_angle (i j : nat) (x : R) (o : lv) : lv :=
  Lv false (lv_pow o) (lv_op o) (lv_evol o) (set2 (lv_th o) i j x) (lv_dl o) (lv_nt o).
Definition lv_phase (i j : nat) (x : R) (o : lv) : lv :=
  Lv false (lv_pow o) (lv_op o) (lv_evol o) (lv_th o) (set2 (lv_dl o) i j x) (lv_nt o).
(** nuSQuIDS.cpp:1617-1625 through the virtual setter: every phase is negated for antineutrinos *)
Definition negate_phases (o : lv) : lv :=
  fold_left (fun o ij => lv_phase (fst ij) (snd ij) (- lv_dl o (fst ij) (snd ij)) o) [(0, 1); (0, 2); (1, 2)]%nat o.
Definition cp_fix (rho : nat) (o : lv) : lv := if anti_type (lv_nt o) rho then negate_phases o else o.
(** nuSQuIDS.cpp:1662-1679: for every type and flavour the phases are turned and turned back; the grid is left out *)
Definition ini_flavours (o : lv) : lv :=
  fold_left (fun o rho => fold_left (fun o _ => cp_fix rho (cp_fix rho o)) [0; 1; 2]%nat o)
    (match lv_nt o with Both => [0; 1]%nat | _ => [0%nat] end) o.
(** 174-190: the flag is put back after nuSQUIDS::Set_initial_state *)
Definition lv_initial (o : lv) : lv :=
  let o' := ini_flavours o in
  Lv (lv_set o) (lv_pow o') (lv_op o') (lv_evol o') (lv_th o') (lv_dl o') (lv_nt o').
(** nuSQuIDS.cpp:2883-2894; [v] the default values *)
Definition lv_defaults (v : nat -> R) (o : lv) : lv :=
  lv_phase 0 2 0 (lv_angle 1 2 (v 2%nat) (lv_angle 0 2 (v 1%nat) (lv_angle 0 1 (v 0%nat) o))).
(** 25-33: AddToPreDerive; None: it throws *)
Definition lv_prederive (H : nat -> mat) (dt : R) (o : lv) : option lv :=
  if lv_set o then Some (Lv true (lv_pow o) (lv_op o) (fun ei => evolve (H ei) dt (lv_op o)) (lv_th o) (lv_dl o) (lv_nt o))
  else None.
(** 66-78: what is added to nuSQUIDS::HI *)
Definition lv_term (E : nat -> R) (o : lv) (ei rho : nat) : mat :=
  mscale ((if anti_type (lv_nt o) rho then -1 else 1) * powerRZ (E ei) (lv_pow o)) (lv_evol o ei).

(** 35-50 and 52-63; object 0 is "c_values"; attributes 0-3.  None: indeterminate values are used *)
Definition lv_write (emu mutau : C) (objs : objects) (f : file) : file :=
  set_attr objs 0 3 (im emu) (set_attr objs 0 2 (re emu) (set_attr objs 0 1 (im mutau) (set_attr objs 0 0 (re mutau) f))).
Definition lv_read (order : list (nat * nat)) (f : file) (o : lv) : option lv :=
  match get_attr f 0 2, get_attr f 0 3, get_attr f 0 0, get_attr f 0 1 with
  | Some er, Some ei, Some mr, Some mi => Some (lv_params order (mkC er ei) (mkC mr mi) o)
  | _, _, _, _ => None
  end.

(** calls a program can make between evolutions *)
Inductive lv_call :=
| CMatrix (M : mat) | CParams (emu mutau : C) | CPower (n : Z) | CAngle (i j : nat) (x : R) | CPhase (i j : nat) (x : R)
| CInitial | CDefaults (v : nat -> R) | CPreDerive (H : nat -> mat) (dt : R).
Definition lv_do (order : list (nat * nat)) (c : lv_call) (o : lv) : lv :=
  match c with
  | CMatrix M => lv_operator order M o
  | CParams e m => lv_params order e m o
  | CPower n => lv_power n o
  | CAngle i j x => lv_angle i j x o
  | CPhase i j x => lv_phase i j x o
  | CInitial => lv_initial o
  | CDefaults v => lv_defaults v o
  | CPreDerive H dt => match lv_prederive H dt o with Some o' => o' | None => o end
  end.
Definition lv_run (order : list (nat * nat)) (cs : list lv_call) (o : lv) : lv := fold_left (fun o c => lv_do order c o) cs o.

(** 152-171: dump_probabilities of one node: the numbers after the energy;
    [content rho k] is EvalFlavorAtNode *)
Definition dump_flavour (nt : nutype) (content : nat -> nat -> R) (k : nat) : list R :=
  match nt with
  | Both => [content 0%nat k; content 1%nat k]
  | Neutrino => [content 0%nat k; 0]
  | Antineutrino => []
  end.
Definition dump (n : nat) (nt : nutype) (content : nat -> nat -> R) : list R :=
  flat_map (dump_flavour nt content) (seq 0 n).
