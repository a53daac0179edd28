(** Read-out of a nuSQUIDS object: EvalMass, EvalFlavor, their averaged forms,
    EvalMassAtNode and EvalFlavorAtNode (src/nuSQuIDS.cpp:1446-1600), and the
    initialisers as far as they decide what may be read (78-257).

    SQuIDS's own read-outs are parameters: [at_energy op rho E] is the content of
    [op] in the state between the nodes (GetIntermediateState),
    [at_energy_turned op rho E] GetExpectationValueD, [at_node_turned op rho ei]
    GetExpectationValue, and their averaged forms.  Energies passed by a caller
    may be not a number; every comparison with it is false. *)
From Coq Require Import Reals List Arith Bool.
From Verif Require Import CMatrix FlavorModel.
Import ListNotations.
Open Scope R_scope.

Inductive number := Num (x : R) | NotANumber.
Definition ltn (a b : number) : bool :=
  match a, b with Num x, Num y => if Rlt_dec x y then true else false | _, _ => false end.

(** What a call does.  [Outside]: an element that does not exist is read *)
Inductive answer := Value (x : R) | Throws | Outside.

Record obj := Obj {
  q_n : nat;            (* numneu = nsun *)
  q_nrhos : nat;
  q_ne : nat;
  q_nt : nutype;
  q_basis : basis;
  q_E : list R;         (* E_range *)
  q_energy : bool;      (* ienergy *)
  q_init : bool;        (* inusquids *)
  q_state : bool;       (* state != nullptr *)
  q_full : bool;        (* use_full_hamiltonian_for_projector_evolution *)
  q_b0 : nat -> mat;    (* b0_proj, numneu elements *)
  q_b1 : nat -> nat -> mat;     (* b1_proj, nrhos x numneu *)
  q_evol : nat -> nat -> nat -> mat;  (* evol_b1_proj, nrhos x numneu x ne *)
  q_rho : nat -> nat -> mat     (* state[ei].rho[rho] *)
}.

(** 78-140: one energy; None: it throws.  [maxdim] is SQUIDS_MAX_HILBERT_DIM *)
Definition init_single (maxdim n : nat) (nt : nutype) (b0 : nat -> mat) (b1 : nat -> nat -> mat) (rho : nat -> nat -> mat) : option obj :=
  match nt with
  | Both => None
  | _ => if Nat.ltb maxdim n || Nat.ltb n 3 then None
         else Some (Obj n 1 1 nt BInter [] false true true false b0 b1 (fun r f _ => b1 r f) rho)
  end.
(** 142-153: Set_E *)
Definition set_e (E : R) (o : obj) : option obj :=
  if Nat.eqb (q_ne o) 1 then
    Some (Obj (q_n o) (q_nrhos o) (q_ne o) (q_nt o) (q_basis o) [E] true (q_init o) (q_state o) (q_full o) (q_b0 o) (q_b1 o) (q_evol o) (q_rho o))
  else None.
(** 155-257: a grid; the assertion that it is not empty is taken to hold *)
Definition init_grid (maxdim n : nat) (nt : nutype) (E : list R) (b0 : nat -> mat) (b1 : nat -> nat -> mat) (rho : nat -> nat -> mat) : option obj :=
  if Nat.ltb maxdim n || Nat.ltb n 3 then None
  else Some (Obj n (match nt with Both => 2 | _ => 1 end) (length E) nt BInter E true false true false b0 b1 (fun r f _ => b1 r f) rho).

Section Read.
  Variable at_energy : mat -> nat -> number -> R.
  Variable at_energy_turned : mat -> nat -> number -> R.
  Variable at_energy_averaged : mat -> nat -> number -> R -> R.
  Variable at_node_turned : mat -> nat -> nat -> R.
  Variable at_node_averaged : mat -> R -> nat -> R.

  (** elements of the arrays; None: outside *)
  Definition b0_at (o : obj) (flv : nat) : option mat := if Nat.ltb flv (q_n o) then Some (q_b0 o flv) else None.
  Definition b1_at (o : obj) (rho flv : nat) : option mat :=
    if Nat.ltb rho (q_nrhos o) && Nat.ltb flv (q_n o) then Some (q_b1 o rho flv) else None.
  Definition rho_at (o : obj) (ei rho : nat) : option mat :=
    if Nat.ltb ei (q_ne o) && Nat.ltb rho (q_nrhos o) then Some (q_rho o ei rho) else None.
  Definition evol_at (o : obj) (rho flv ei : nat) : option mat :=
    if Nat.ltb rho (q_nrhos o) && Nat.ltb flv (q_n o) && Nat.ltb ei (q_ne o) then Some (q_evol o rho flv ei) else None.

  Definition first_e (o : obj) : number := Num (hd 0 (q_E o)).
  Definition last_e (o : obj) : number := Num (last (q_E o) 0).
  Definition out_of_range (o : obj) (E : number) : bool := ltn E (first_e o) || ltn (last_e o) E.
  Definition wrong_type (o : obj) (rho : nat) : bool :=
    negb (Nat.eqb rho 0) && match q_nt o with Both => false | _ => true end.

  Definition with_op (m : option mat) (f : mat -> answer) : answer := match m with Some A => f A | None => Outside end.
  (** SQuIDS reads its own state with [rho] *)
  Definition of_state (o : obj) (rho : nat) (x : R) : answer := if Nat.ltb rho (q_nrhos o) then Value x else Outside.

  (** 1454-1465 *)
  Definition eval_mass_e (o : obj) (flv : nat) (E : number) (rho : nat) : answer :=
    if negb (q_energy o) then Throws
    else if wrong_type o rho then Throws
    else match q_basis o with
    | BMass => with_op (b0_at o flv) (fun A => of_state o rho (at_energy A rho E))
    | _ => if out_of_range o E then Throws
           else with_op (b0_at o flv) (fun A => of_state o rho (at_energy_turned A rho E))
    end.
  (** 1467-1478 *)
  Definition eval_flavor_e (o : obj) (flv : nat) (E : number) (rho : nat) : answer :=
    if negb (q_energy o) then Throws
    else if wrong_type o rho then Throws
    else if out_of_range o E then Throws
    else match q_basis o with
    | BMass => with_op (b1_at o rho flv) (fun A => of_state o rho (at_energy A rho E))
    | _ => with_op (b1_at o rho flv) (fun A => of_state o rho (at_energy_turned A rho E))
    end.
  (** 1480-1493 and 1495-1508; [len] the length of the flags *)
  Definition eval_mass_avg (o : obj) (flv : nat) (E : number) (rho : nat) (scale : R) (len : nat) : answer :=
    if negb (q_energy o) then Throws
    else if wrong_type o rho then Throws
    else if out_of_range o E then Throws
    else if negb (Nat.eqb len (q_n o)) then Throws
    else match q_basis o with
    | BMass => with_op (b0_at o flv) (fun A => of_state o rho (at_energy A rho E))
    | _ => with_op (b0_at o flv) (fun A => of_state o rho (at_energy_averaged A rho E scale))
    end.
  Definition eval_flavor_avg (o : obj) (flv : nat) (E : number) (rho : nat) (scale : R) (len : nat) : answer :=
    if negb (q_energy o) then Throws
    else if wrong_type o rho then Throws
    else if out_of_range o E then Throws
    else if negb (Nat.eqb len (q_n o)) then Throws
    else match q_basis o with
    | BMass => with_op (b1_at o rho flv) (fun A => of_state o rho (at_energy A rho E))
    | _ => with_op (b1_at o rho flv) (fun A => of_state o rho (at_energy_averaged A rho E scale))
    end.
  (** 1510-1518, 1520-1528 *)
  Definition eval_mass_node (o : obj) (flv ei rho : nat) : answer :=
    if negb (q_energy o) then Throws
    else if wrong_type o rho then Throws
    else match q_basis o with
    | BMass => with_op (b0_at o flv) (fun A => with_op (rho_at o ei rho) (fun S => Value (expect (q_n o) A S)))
    | _ => with_op (b0_at o flv) (fun A => with_op (rho_at o ei rho) (fun _ => Value (at_node_turned A rho ei)))
    end.
  Definition eval_flavor_node (o : obj) (flv ei rho : nat) : answer :=
    if negb (q_energy o) then Throws
    else if wrong_type o rho then Throws
    else match q_basis o with
    | BMass => with_op (b1_at o rho flv) (fun A => with_op (rho_at o ei rho) (fun S => Value (expect (q_n o) A S)))
    | _ => with_op (b1_at o rho flv) (fun A => with_op (rho_at o ei rho) (fun _ => Value (at_node_turned A rho ei)))
    end.
  (** the checks of 1530-1600 *)
  Definition refused (o : obj) (flv : nat) : bool :=
    negb (q_state o) || negb (q_init o) || negb (q_energy o) || negb (Nat.eqb (q_ne o) 1) || Nat.leb (q_n o) flv.
  (** 1565-1580, 1582-1600 *)
  Definition eval_mass_one (o : obj) (flv : nat) : answer :=
    if refused o flv then Throws
    else match q_basis o with
    | BMass => with_op (b0_at o flv) (fun A => with_op (rho_at o 0 0) (fun S => Value (expect (q_n o) A S)))
    | _ => with_op (b0_at o flv) (fun A => with_op (rho_at o 0 0) (fun _ => Value (at_node_turned A 0 0)))
    end.
  Definition eval_flavor_one (o : obj) (flv : nat) : answer :=
    if refused o flv then Throws
    else match q_basis o with
    | BMass => with_op (b1_at o 0 flv) (fun A => with_op (rho_at o 0 0) (fun S => Value (expect (q_n o) A S)))
    | _ =>
      if q_full o then with_op (evol_at o 0 flv 0) (fun A => with_op (rho_at o 0 0) (fun S => Value (expect (q_n o) A S)))
      else with_op (b1_at o 0 flv) (fun A => with_op (rho_at o 0 0) (fun _ => Value (at_node_turned A 0 0)))
    end.
  (** 1530-1545, 1547-1563: SQuIDS is given the flags, of any length [len] *)
  Definition eval_flavor_one_avg (o : obj) (flv : nat) (scale : R) (len : nat) : answer :=
    if refused o flv then Throws
    else match q_basis o with
    | BMass => with_op (b1_at o 0 flv) (fun A => with_op (rho_at o 0 0) (fun S => Value (expect (q_n o) A S)))
    | _ =>
      if q_full o then with_op (evol_at o 0 flv 0) (fun A => with_op (rho_at o 0 0) (fun S => Value (expect (q_n o) A S)))
      else with_op (b1_at o 0 flv) (fun A => with_op (rho_at o 0 0) (fun _ => Value (at_node_averaged A scale len)))
    end.
End Read.
