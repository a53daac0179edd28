(** The evolution equation of a whole object: every node and kind together, as
    SQuIDS puts it together from GammaRho and InteractionsRho
    (src/nuSQuIDS.cpp:363-431) after PreDerive has brought the lengths and the
    regeneration up to date (278-297, 586-972).  The terms are those of IntModel,
    the equation that of FlavorModel; the Hamiltonian may be any hermitian matrix
    (HI, 334-361, or one of a derived class).

    SQuIDS's vectors stand for matrices: [mat_of] gives the matrix of a vector and
    [dot] the scalar product, both parameters since that library is not part of
    the repository; [su_repr] is what is used of them. *)
From Coq Require Import Reals List Arith Bool.
From Verif Require Import Err CMatrix FlavorModel.
From Verif Require Import IntModel.
Local Open Scope R_scope.

Record su_repr (n : nat) (mat_of : vec -> mat) (dot : vec -> vec -> R) : Prop := Repr {
  su_ext : forall a b, (forall k, (k < n * n)%nat -> a k = b k) -> meq n (mat_of a) (mat_of b);
  su_add : forall a b, meq n (mat_of (vadd a b)) (mplus (mat_of a) (mat_of b));
  su_scale : forall x a, meq n (mat_of (vscale x a)) (mscale x (mat_of a));
  su_dot : forall a b, dot a b = re (trace n (mmult n (mat_of a) (mat_of b))) }.

Section Equation.
Variable n : nat.
Variable mat_of : vec -> mat.
Variable dot : vec -> vec -> R.
Variable inter osc : bool.          (* iinteraction, ioscillations *)
Variable tb : itables.
Variable rne : nat.

(** GammaRho, 363-372 *)
Definition absorption (proj : nat -> nat -> nat -> vec) (c : iconf) (old : istate) (e r : nat) : vec :=
  if inter then IntModel.gamma_rho proj (update_lengths c tb old) e r else vzero.
(** InteractionsRho, 374-431, after PreDerive *)
Definition regeneration (proj : nat -> nat -> nat -> vec) (st : nat -> nat -> vec) (c : iconf) (old : istate) (fold : ifactors) (e r : nat) : vec :=
  let s := update_lengths c tb old in
  IntModel.interactions_rho proj c inter osc (cache_noosc dot proj st c tb s rne) (update_osc dot proj st c tb s fold) r e.

(** [st] fulfils the equation at clock [t], at node [e] for kind [r]: Hamiltonian
    [H], projectors [proj], medium and sources [c], buffers [old], [fold] left from
    before. *)
Definition solves_at (H : mat) (proj : nat -> nat -> nat -> vec) (c : iconf) (old : istate) (fold : ifactors)
    (st : R -> nat -> nat -> vec) (t : R) (e r : nat) : Prop :=
  mderiv n (fun s => mat_of (st s e r)) t
    (rhs n H (mat_of (absorption proj c old e r)) (mat_of (regeneration proj (st t) c old fold e r)) (mat_of (st t e r))).
End Equation.

(** The same medium with other sources. *)
Definition with_ext (c : iconf) (x : nat -> nat -> nat -> R) : iconf :=
  MkC (c_nt c) (c_nrhos c) (c_ne c) (c_numneu c) (c_tau c) (c_gr c) (c_src c) (c_dens c) (c_frac c) (c_ye c) (c_delE c) x.
