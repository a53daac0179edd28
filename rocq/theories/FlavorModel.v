(** Flavour content of the density matrices: mixing, projectors, initial
    states, read-out and the terms of the evolution equation —
    nuSQuIDS.cpp:299-432, 1307-1444, 1454-1685.

    SU_vector objects (SQuIDS) stand for hermitian matrices; here they are
    those matrices.  Of SQuIDS we take, as documented: Projector(n,k) is the
    k-th diagonal unit; RotateToB1 conjugates with a product of two-by-two
    rotations of the given angles and phases (the order is an argument); the
    product of two SU_vectors is the trace of the product of the matrices;
    Evolve(H,t) of a diagonal H conjugates with e^{iHt}; UTransform(H,it)
    conjugates with e^{-iHt}; and the equation solved is
    d rho/dt = -i [HI,rho] - {GammaRho,rho} + InteractionsRho. *)
From Coq Require Import Reals List Arith Bool.
From Verif Require Import CMatrix.
Import ListNotations.
Open Scope R_scope.

Inductive nutype := Neutrino | Antineutrino | Both.
Inductive basis := BInter | BMass | BFlavor.

(** SU_vector::Projector *)
Definition ket_proj (k : nat) : mat := fun a b => cmult (delta a k) (delta b k).

(** rotation in the plane of [i] and [j] *)
Definition rot (i j : nat) (th dl : R) : mat := fun a b =>
  if Nat.eqb a i then
    if Nat.eqb b i then rtc (cos th)
    else if Nat.eqb b j then cmult (rtc (sin th)) (cexp (- dl)) else delta a b
  else if Nat.eqb a j then
    if Nat.eqb b i then cmult (rtc (- sin th)) (cexp dl)
    else if Nat.eqb b j then rtc (cos th) else delta a b
  else delta a b.

(** the mixing matrix: rotations for the pairs of [order] *)
Fixpoint mixing (n : nat) (th dl : nat -> nat -> R) (order : list (nat * nat)) : mat :=
  match order with
  | [] => mid
  | (i, j) :: rest => mmult n (rot i j (th i j) (dl i j)) (mixing n th dl rest)
  end.

(** SU_vector::RotateToB1 *)
Definition rotate_b1 (n : nat) (V A : mat) : mat := mmult n (mmult n V A) (dagger V).

(** AntineutrinoCPFix, 1617-1625: phases used for density matrix [rho] *)
Definition fixed_phases (nt : nutype) (rho : nat) (dl : nat -> nat -> R) : nat -> nat -> R :=
  match nt with
  | Antineutrino => fun i j => - dl i j
  | Both => if Nat.eqb rho 1 then fun i j => - dl i j else dl
  | Neutrino => dl
  end.

(** 1632-1643 and 1662-1679: b0_proj, b1_proj *)
Definition b0_proj (k : nat) : mat := ket_proj k.
Definition b1_proj (n : nat) (th dl : nat -> nat -> R) (order : list (nat * nat)) (nt : nutype)
    (rho k : nat) : mat :=
  rotate_b1 n (mixing n th (fixed_phases nt rho dl) order) (ket_proj k).

(** 1340-1352, 1383-1395, 1431-1443: the state of one node and type; [P] the
    flavour projectors; other bases are refused before *)
Definition ini_state (n : nat) (b : basis) (P : nat -> mat) (v : nat -> R) : mat :=
  msum n (fun j => mscale (v j) (match b with BFlavor => P j | _ => b0_proj j end)).

(** 1601-1605 *)
Definition dm2 (n : nat) (ediff : nat -> R) : mat :=
  msum (n - 1) (fun i => mscale (ediff (S i)) (b0_proj (S i))).

(** 329-333 *)
Definition h0 (n : nat) (osc : bool) (ediff : nat -> R) (E : R) : mat :=
  if osc then mscale (5 / 10 / E) (dm2 n ediff) else mzero.

(** SU_vector::Evolve for a diagonal hamiltonian *)
Definition evolve (H : mat) (t : R) (A : mat) : mat := fun a b =>
  cmult (cexp ((re (H a a) - re (H b b)) * t)) (A a b).

(** SU_vector * SU_vector *)
Definition expect (n : nat) (A rho : mat) : R := re (trace n (mmult n A rho)).

(** 299-327: evol_b1_proj at clock [t] after a start at [t0], no low pass *)
Definition evolved (H : mat) (t t0 : R) (P : nat -> mat) (k : nat) : mat := evolve H (t - t0) (P k).

(** EvalFlavorAtNode 1522-1530, EvalMassAtNode 1512-1520 after the checks;
    GetExpectationValue evolves the operator with H0 for the time since the start *)
Definition eval_flavor (n : nat) (b : basis) (H : mat) (t t0 : R) (P : nat -> mat) (rho : mat) (k : nat) : R :=
  match b with
  | BMass => expect n (P k) rho
  | _ => expect n (evolve H (t - t0) (P k)) rho
  end.
Definition eval_mass (n : nat) (b : basis) (H : mat) (t t0 : R) (rho : mat) (k : nat) : R :=
  match b with
  | BMass => expect n (b0_proj k) rho
  | _ => expect n (evolve H (t - t0) (b0_proj k)) rho
  end.

(** 335-360; [Pt] are the projectors at the present clock, the signs of the
    potentials have been set (C39) *)
Definition hi (b : basis) (H : mat) (cc nc : R) (Pt : nat -> mat) : mat :=
  let pot := mplus (mplus (mscale (cc + nc) (Pt 0%nat)) (mscale nc (Pt 1%nat))) (mscale nc (Pt 2%nat)) in
  match b with BMass => mplus pot H | _ => pot end.

(** 362-371 *)
Definition gamma_rho (inter : bool) (invlen : nat -> R) (Pt : nat -> mat) : mat :=
  if inter then
    mplus (mplus (mscale (5 / 10 * invlen 0%nat) (Pt 0%nat)) (mscale (5 / 10 * invlen 1%nat) (Pt 1%nat)))
          (mscale (5 / 10 * invlen 2%nat) (Pt 2%nat))
  else mzero.

(** 373-432, with oscillations on: the three factors after all additions
    (C41, C65), and the sources of the other flavours *)
Fixpoint rest_sources (m : nat) (ext : nat -> R) (Pt : nat -> mat) (A : mat) (i : nat) : mat :=
  match m with
  | O => A
  | S m' => rest_sources m' ext Pt (mplus A (mscale (ext i) (Pt i))) (S i)
  end.
Definition interactions_rho (n : nat) (inter sources : bool) (gain ext : nat -> R) (Pt : nat -> mat) : mat :=
  if negb inter && negb sources then mzero
  else if negb inter then
    rest_sources (n - 1) ext Pt (mscale (ext 0%nat) (Pt 0%nat)) 1
  else
    let factor := fun k => if sources then gain k + ext k else gain k in
    let t := mplus (mplus (mscale (factor 0%nat) (Pt 0%nat)) (mscale (factor 1%nat) (Pt 1%nat)))
                   (mscale (factor 2%nat) (Pt 2%nat)) in
    if sources then rest_sources (n - 3) ext Pt t 3 else t.

(** right-hand side of the equation solved by SQuIDS *)
Definition coherent (n : nat) (H rho : mat) : mat := fun i j =>
  cmult (mkC 0 (-1)) (cminus (mmult n H rho i j) (mmult n rho H i j)).
Definition anti (n : nat) (G rho : mat) : mat := mplus (mmult n G rho) (mmult n rho G).
Definition rhs (n : nat) (H G I rho : mat) : mat :=
  mplus (mplus (coherent n H rho) (mscale (-1) (anti n G rho))) I.

(** [rho] has derivative [D] at [t] *)
Definition mderiv (n : nat) (rho : R -> mat) (t : R) (D : mat) : Prop := forall i j,
  (i < n)%nat -> (j < n)%nat ->
  derivable_pt_lim (fun s => re (rho s i j)) t (re (D i j)) /\
  derivable_pt_lim (fun s => im (rho s i j)) t (im (D i j)).

(** the shortcut for constant density, 1258-1285: the node's matrix is
    conjugated with e^{-iHt}; in vacuum H is diagonal *)
Definition shortcut_vacuum (H : mat) (t : R) (rho : mat) : mat := evolve H (- t) rho.
Definition conjugated (n : nat) (W rho : mat) : mat := mmult n (mmult n W rho) (dagger W).

(** Layers of vacuum crossed one after the other, without setting the state
    again: EvolveState (1233-1305) per layer.  A layer whose body says it has
    constant density takes the shortcut, which moves the object to the mass
    basis and switches the numerics off; others are solved numerically, which
    does nothing while the numerics are off. *)
Inductive layer := Numeric (len : R) | Shortcut (len : R).
Record path := Path { p_basis : basis; p_numerics : bool; p_time : R; p_rho : mat }.

Definition cross (H : mat) (p : path) (l : layer) : path :=
  match l with
  | Shortcut d => Path BMass false (p_time p + d) (shortcut_vacuum H d (p_rho p))
  | Numeric d =>
      Path (p_basis p) (p_numerics p) (p_time p + d)
        (if p_numerics p then
           match p_basis p with BMass => evolve H (- d) (p_rho p) | _ => p_rho p end
         else p_rho p)
  end.
Definition cross_all (H : mat) (p : path) (ls : list layer) : path := fold_left (cross H) ls p.
Definition start (rho : mat) : path := Path BInter true 0 rho.
