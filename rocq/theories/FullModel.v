(** What the evolution object of StateModel means when neutrinos interact or
    are emitted.

    As EndModel, with the whole right-hand side of SuperModel: absorption
    (GammaRho, nuSQuIDS.cpp:363-372), regeneration (InteractionsRho 374-431,
    UpdateInteractions 586-972) and sources (PreDerive 282-285), all nodes and
    kinds together.  Oscillations on.  The numbers held by the interaction
    structure are those of [tab] (GetCrossSections 1046-1190 is modelled in
    XsModel and TauModel), the emission of a body those of [emission]
    (Body::injected_neutrino_flux; that it may look at the object is left out). *)
From Coq Require Import Reals List Arith Bool.
From Verif Require Import IntModel XsModel StateModel StateProofs CMatrix FlavorModel SuperModel EndModel.
Import ListNotations.
Local Open Scope R_scope.

Section Meaning.
(** the order of the rotations made by RotateToB1 *)
Variable order : list (nat * nat).
Variable m : media.
(** what a body emits at a position: node, kind, flavour *)
Variable emission : body -> R -> nat -> nat -> nat -> R.
(** the numbers in an interaction structure, for the nodes and kind of the object *)
Variable tab : tabs -> list R -> nt -> itables.

(** a structure of which nothing is filled *)
Definition no_tables : itables :=
  MkT (fun _ _ _ _ _ => 0) (fun _ _ _ _ _ => 0) (fun _ _ => 0) (fun _ _ _ _ => 0) (fun _ _ _ _ => 0) (fun _ => 0)
      (fun _ _ _ => 0) (fun _ _ _ => 0).
Definition held (s : nus) : itables :=
  match i_tabs (q_ints s) with Some t => tab t (q_E s) (q_nt s) | None => no_tables end.
(** int_struct->targets.size() *)
Definition targets_held (s : nus) : nat := match i_tabs (q_ints s) with Some t => tb_targets t | None => 0%nat end.

(** what UpdateInteractions and InteractionsRho read at position [p] of body
    [b]: shape and switches, GetTargetNumberDensities and -Fractions
    (441-489), current_ye, delE (197-199), current_external_flux *)
Definition conf_of (s : nus) (b : body) (p : R) : iconf :=
  MkC (q_nt s) (q_nrhos s) (q_ne s) (q_numneu s) (o_tau (q_opts s)) (o_gr (q_opts s)) (o_src (q_opts s))
      (target_densities (m_k m) (Nat.eqb (targets_held s) 1) (m_rho m b p) (m_ye m b p))
      (target_fractions (targets_held s) (m_ye m b p)) (m_ye m b p)
      (fun i => nth (i + 1) (q_E s) 0 - nth i (q_E s) 0) (emission b p).

(** HI(ie, r) at clock [x] (334-360) *)
Definition ham (s : nus) (b : body) (off : R) (ie r : nat) (x : R) : mat :=
  hi (basis_of (o_basis (q_opts s))) (stored_H s ie) (cc_at m (q_nt s) r b (x - off)) (nc_at m (q_nt s) r b (x - off)) (used_P order s ie r x).

(** SQuIDS's vectors: the matrix of one, and the scalar product *)
Variable mat_of : nat -> vec -> mat.
Variable dot : nat -> vec -> vec -> R.
Variable dec : nat -> nat -> list R -> nat -> nat -> mat.

(** the external parts do what they are for, projectors and vacuum Hamiltonian being up to date; [old] and [fold] are the contents
    of the buffers before each look, which are anything *)
Record exact_all (e : env) : Prop := {
  ea_mk : forall s v b ie r, (ie < q_ne s)%nat -> (r < q_nrhos s)%nat ->
    meq (q_numneu s) (matrix dec s (e_mk e s v b) ie r) (ini_state (q_numneu s) (basis_of b) (stored_P order s r) (v ie r));
  ea_solve : forall s dt ts t' l b off, e_solve e s dt = (ts, true, t', l) -> 0 <= dt ->
    q_body s = Some b -> q_offset s = Some off -> o_osc (q_opts s) = true -> h_osc (q_h0 s) = true -> fresh s ->
    exists (st : R -> nat -> nat -> vec) (pr : R -> nat -> nat -> nat -> vec) (old : R -> istate) (fold : R -> ifactors),
      (forall x r f ie, (r < q_nrhos s)%nat -> (f < q_numneu s)%nat -> (ie < q_ne s)%nat ->
         meq (q_numneu s) (mat_of (q_numneu s) (pr x r f ie)) (used_P order s ie r x f)) /\
      (forall x ie r, sq_t (q_sq s) <= x <= sq_t (q_sq s) + dt -> (ie < q_ne s)%nat -> (r < q_nrhos s)%nat ->
         solves_at (q_numneu s) (mat_of (q_numneu s)) (dot (q_numneu s)) (o_int (q_opts s)) (o_osc (q_opts s)) (held s) (r4 (q_ne s))
           (ham s b off ie r x) (pr x) (conf_of s b (x - off)) (old x) (fold x) st x ie r) /\
      (forall ie r, (ie < q_ne s)%nat -> (r < q_nrhos s)%nat ->
         meq (q_numneu s) (mat_of (q_numneu s) (st (sq_t (q_sq s)) ie r)) (matrix dec s (sq_state (q_sq s)) ie r) /\
         meq (q_numneu s) (matrix dec s l ie r) (mat_of (q_numneu s) (st (sq_t (q_sq s) + dt) ie r))) }.
End Meaning.
