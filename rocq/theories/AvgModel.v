(** Read-outs with fast oscillations averaged out: EvalMass and EvalFlavor with
    a scale, nuSQuIDS.cpp:1480-1563, and the flavour ratios of
    examples/Astrophysical_neutrino_flavor_ratio/main.cpp:111-171.  The checks
    made before (C80) have passed.

    Of SQuIDS we take, as documented in nuSQuIDS.h:776-801: with a scale, the
    evolution by a diagonal hamiltonian leaves out the elements between two
    different states whose phase is larger than the scale, and treats the others
    as without one.  The flags telling which were left out are not part of the
    result. *)
From Coq Require Import Reals Arith Bool.
From Verif Require Import CMatrix FlavorModel.
Open Scope R_scope.

(** SU_vector::PrepareEvolve(buffer,t,scale,avr) and Evolve(buffer) *)
Definition fast (scale : R) (H : mat) (t : R) (a b : nat) : bool :=
  negb (Nat.eqb a b) && (if Rlt_dec scale (Rabs ((re (H a a) - re (H b b)) * t)) then true else false).
Definition avg_evolve (scale : R) (H : mat) (t : R) (A : mat) : mat := fun a b =>
  if fast scale H t a b then c0 else evolve H t A a b.

(** 1544-1563: [t], [t0] the clock now and at the start.  In the mass basis the
    scale is not used. *)
Definition eval_flavor_avg (n : nat) (b : basis) (H : mat) (t t0 scale : R) (P : nat -> mat) (rho : mat) (k : nat) : R :=
  match b with
  | BMass => expect n (P k) rho
  | _ => expect n (avg_evolve scale H (t - t0) (P k)) rho
  end.
(** 1526-1542 *)
Definition eval_mass_avg (n : nat) (b : basis) (H : mat) (t t0 scale : R) (rho : mat) (k : nat) : R :=
  match b with
  | BMass => expect n (b0_proj k) rho
  | _ => expect n (avg_evolve scale H (t - t0) (b0_proj k)) rho
  end.

(** main.cpp:156-168, the loop over masses and initial flavours; [U] is
    GetTransformationMatrix, row by flavour and column by mass *)
Definition ratio (n : nat) (U : mat) (v : nat -> R) (k : nat) : R :=
  rsum n (fun a => rsum n (fun j => cnorm2 (U k a) * cnorm2 (U j a) * v j)).
(** GetTransformationMatrix, by the contract that the flavour states are its rows *)
Definition transformation (n : nat) (th dl : nat -> nat -> R) (order : list (nat * nat)) : mat :=
  dagger (mixing n th dl order).
