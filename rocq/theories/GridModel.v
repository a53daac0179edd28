(** Model of linspace and logspace, src/tools.cpp 105-135. Doubles are reals: rounding is not modelled. *)
From Coq Require Import List Reals.
From Verif Require Import Err.
Import ListNotations.
Local Open Scope R_scope.

(** The loop "for(i..; i++, EE+=step) points[i]=g(EE)": [k] points remain. *)
Fixpoint grid_loop (g : R -> R) (k : nat) (EE step : R) : list R :=
  match k with O => [] | S k' => g EE :: grid_loop g k' (EE + step) step end.

(** [linspace], 105-117. std::length_error is a logic_error. For div=1 the step divides by zero but is not used. *)
Definition linspace (Emin Emax : R) (div : nat) : outcome (list R) :=
  match div with
  | O => Throw LogicError
  | S d => let step := (Emax - Emin) / INR d in
           Ok (grid_loop (fun e => e) d Emin step ++ [Emax])
  end.

(** [logspace], 119-135. For div=1 the single slot is overwritten with Emax. *)
Definition logspace (Emin Emax : R) (div : nat) : outcome (list R) :=
  match div with
  | O => Throw LogicError
  | S O => Ok [Emax]
  | S (S d) => let step := (ln Emax - ln Emin) / INR (S d) in
           Ok (Emin :: grid_loop exp d (ln Emin + step) step ++ [Emax])
  end.
