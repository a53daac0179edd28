(** The decoherence extension of the examples: nuSQUIDSDecoh
    (examples/Decoherence/nuSQUIDSDecoh.h, nuSQUIDSDecoh.cpp), with the parts of
    nuSQUIDS that decide whether its term is used (src/nuSQuIDS.cpp:246-249,
    1258-1286; include/nuSQuIDS/nuSQuIDS.h:1047-1056).

    Of SQuIDS we take: an SU_vector of dimension n has n*n components, component
    n*r+c belonging to the real coherence of r and c (r<c), to the imaginary one
    (r>c), to a traceless diagonal matrix (r=c>0) or to the identity (0); this is
    the order nuSQUIDSDecoh.cpp:78-92 maps to.  Signs and lengths of the
    generators are left open ([s]).  Derive adds InteractionsRho if
    OtherRhoTerms is set, and it is not set at first. *)
From Coq Require Import Reals List Arith Bool.
From Verif Require Import CMatrix FlavorModel.
Open Scope R_scope.

(** ** Components *)
Definition comps := nat -> R.
Definition part (n r c : nat) : mat := fun a b =>
  if Nat.eqb r c then
    if Nat.eqb r 0 then delta a b
    else if Nat.eqb a b then if Nat.ltb a r then c1 else if Nat.eqb a r then rtc (- INR r) else c0 else c0
  else if Nat.ltb r c then
    if (Nat.eqb a r && Nat.eqb b c) || (Nat.eqb a c && Nat.eqb b r) then c1 else c0
  else
    if Nat.eqb a c && Nat.eqb b r then mkC 0 (-1) else if Nat.eqb a r && Nat.eqb b c then mkC 0 1 else c0.
Definition gen (n : nat) (s : nat -> R) (k : nat) : mat := mscale (s k) (part n (k / n) (k mod n)).
Definition of_comps (n : nat) (s : nat -> R) (c : comps) : mat := msum (n * n) (fun k => mscale (c k) (gen n s k)).

(** ** The object *)
Record decoh := Decoh {
  d_n : nat;                       (* numneu; num_basis_vectors = numneu^2 *)
  d_gamma : nat -> nat -> R;       (* decoherence_gamma_matrix; the imaginary parts are always 0 *)
  d_on : bool;                     (* enable_decoherence *)
  d_power : R;                     (* gamma_energy_dep_index *)
  d_scale : R;                     (* gamma_energy_scale *)
  d_inter : bool;                  (* iinteraction *)
  d_sources : bool;                (* enable_neutrino_sources *)
  d_other : bool                   (* SQuIDS: OtherRhoTerms *)
}.

(** constructors, nuSQUIDSDecoh.h:33-41, nuSQUIDSDecoh.cpp:12-40 and
    nuSQuIDS.cpp:246-249; one energy: no interactions *)
Definition make (n : nat) (inter : bool) (GeV : R) : decoh :=
  Decoh n (fun _ _ => 0) true 0 GeV inter false inter.

(** nuSQUIDSDecoh.cpp:6-8 *)
Definition enable (on : bool) (o : decoh) : decoh :=
  Decoh (d_n o) (d_gamma o) on (d_power o) (d_scale o) (d_inter o) (d_sources o) (d_other o).
(** 181-183, 189-191 *)
Definition set_power (x : R) (o : decoh) : decoh :=
  Decoh (d_n o) (d_gamma o) (d_on o) x (d_scale o) (d_inter o) (d_sources o) (d_other o).
Definition set_scale (x : R) (o : decoh) : decoh :=
  Decoh (d_n o) (d_gamma o) (d_on o) (d_power o) x (d_inter o) (d_sources o) (d_other o).
(** nuSQuIDS.h:1047-1056 *)
Definition set_sources (on : bool) (o : decoh) : decoh :=
  Decoh (d_n o) (d_gamma o) (d_on o) (d_power o) (d_scale o) (d_inter o) on
    (if negb (d_inter o) && on then true else d_other o).

(** 44-96: MapBasisVectorConventions; None: it throws *)
Definition map_basis (n i : nat) : option nat :=
  if Nat.ltb (n * n) i then None
  else if Nat.eqb n 2 then match i with 0%nat | 1%nat | 2%nat | 3%nat => Some i | _ => None end
  else if Nat.eqb n 3 then
    (match i with
    | 0 => Some 0 | 1 => Some 1 | 2 => Some 3 | 3 => Some 4 | 4 => Some 2
    | 5 => Some 6 | 6 => Some 5 | 7 => Some 7 | 8 => Some 8 | _ => None
    end)%nat
  else None.

(** gsl_matrix_complex_set *)
Definition put (g : nat -> nat -> R) (m k : nat) (x : R) : nat -> nat -> R := fun i j =>
  if Nat.eqb i m && Nat.eqb j k then x else g i j.

(** what a call leaves behind and whether it threw *)
Definition call (X : Type) := (X * bool)%type.

(** 107-127: the two loops *)
Definition set_element (n : nat) (gm : bool) (dmat : nat -> nat -> R) (i j : nat) (g : nat -> nat -> R) : call (nat -> nat -> R) :=
  if gm then
    match map_basis n i with
    | Some m => match map_basis n j with Some k => (put g m k (dmat i j), false) | None => (g, true) end
    | None => (g, true)
    end
  else (put g i j (dmat i j), false).
Fixpoint loop {X : Type} (m lo : nat) (f : nat -> X -> call X) (x : X) : call X :=
  match m with
  | O => (x, false)
  | Datatypes.S m' => let (y, t) := f lo x in if t then (y, true) else loop m' (Datatypes.S lo) f y
  end.
Definition set_elements (n : nat) (gm : bool) (dmat : nat -> nat -> R) (g : nat -> nat -> R) : call (nat -> nat -> R) :=
  loop (n * n) 0 (fun i => loop (n * n) 0 (fun j => set_element n gm dmat i j)) g.

Definition with_gamma (o : decoh) (g : nat -> nat -> R) : decoh :=
  Decoh (d_n o) g (d_on o) (d_power o) (d_scale o) (d_inter o) (d_sources o) (d_other o).

(** 98-129; [e0], [e1] the extents of the matrix *)
Definition set_gamma (e0 e1 : nat) (dmat : nat -> nat -> R) (gm : bool) (o : decoh) : call decoh :=
  if negb (Nat.eqb e0 (d_n o * d_n o)) || negb (Nat.eqb e1 (d_n o * d_n o)) then (o, true)
  else let (g, t) := set_elements (d_n o) gm dmat (d_gamma o) in (with_gamma o g, t).

(** 131-149 *)
Definition set_diagonal (e0 : nat) (dmat : nat -> R) (gm : bool) (o : decoh) : call decoh :=
  if negb (Nat.eqb e0 (d_n o * d_n o)) then (o, true)
  else set_gamma (d_n o * d_n o) (d_n o * d_n o) (fun i j => if Nat.eqb i j then dmat i else 0) gm o.

(** 151-161; the cases of the switch run into the next *)
Inductive dmodel := RandomizePhase | RandomizeState | NeutrinoLoss.
Definition fill (f : nat -> R) (i : nat) (x : R) : nat -> R := fun k => if Nat.eqb k i then x else f k.
Definition model_rates (m : dmodel) (gamma : R) : nat -> R :=
  let f := fun _ => gamma in
  let third := fun f : nat -> R => f in
  let second := fun f => third (fill f 0 0) in
  let first := fun f => second (fill (fill (fill f 0 0) 3 0) 8 0) in
  match m with RandomizePhase => first f | RandomizeState => second f | NeutrinoLoss => third f end.
Definition set_model (m : dmodel) (gamma : R) (o : decoh) : call decoh :=
  set_diagonal (d_n o * d_n o) (model_rates m gamma) false o.

(** 163-179: Get_DecoherenceGammaMatrix *)
Definition get_gamma (o : decoh) (i j : nat) : R := d_gamma o i j.

(** 198-216: DRho; [E] the energy of the node *)
Definition strength (o : decoh) (E : R) : R := Rpower (E / d_scale o) (d_power o).
Definition drho (o : decoh) (E : R) (rho : comps) : comps := fun i =>
  rsum (d_n o * d_n o) (fun j => d_gamma o i j * rho j * strength o E).

(** 219-224: InteractionsRho; [base] what nuSQUIDS::InteractionsRho returns *)
Definition interactions (o : decoh) (E : R) (base rho : comps) : comps :=
  if d_on o then fun i => base i - drho o E rho i else base.

(** the term Derive adds to the rate *)
Definition other_terms (o : decoh) (E : R) (base rho : comps) : comps :=
  if d_other o then interactions o E base rho else fun _ => 0.

(** nuSQuIDS.cpp:1258-1286: evolution over a medium.  [solve D x] integrates the
    equation with the added rate [D]; [turn x] is the shortcut *)
Definition evolve_state (o : decoh) (E : R) (constant allowed : bool) (base : comps)
    (solve : (comps -> comps) -> comps -> comps) (turn : comps -> comps) (rho : comps) : comps :=
  if (constant && negb (d_inter o)) && allowed then turn rho else solve (other_terms o E base) rho.
