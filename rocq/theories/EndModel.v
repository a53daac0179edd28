(** What the evolution object of StateModel means.

    StateModel follows the calls made on an object; its state is a list of
    numbers made by [e_mk] and changed by [e_solve].  Here these numbers are
    read as density matrices, and the two external parts are given the meaning
    they have in nuSQuIDS.cpp: the state made by Set_initial_state
    (1340-1352, 1383-1395, 1431-1443) and the equation handed to SQuIDS
    (H0 328-332, HI 334-360, EvolveProjectors 299-326, PreDerive 278-297).
    Oscillations on, no interactions, no sources.  That SQuIDS solves its
    equation exactly is assumed; how the matrix of a node and type is stored
    ([dec]) is not fixed. *)
From Coq Require Import Reals List Arith Bool.
From Verif Require Import IntModel XsModel StateModel CMatrix FlavorModel.
Import ListNotations.
Local Open Scope R_scope.

(** nuSQuIDS.h:61-71 under the names of the two models *)
Definition basis_of (b : StateModel.basis) : basis :=
  match b with StateModel.BMass => BMass | StateModel.BInter => BInter | StateModel.BFlavor => BFlavor end.
Definition type_of (t : nt) : nutype :=
  match t with Nu => Neutrino | NuBar => Antineutrino | IntModel.Both => FlavorModel.Both end.

(** The media: constants of HI (78-80), density and electron fraction of each
    body by position (body.h, density and ye). *)
Record media := Media { m_k : consts; m_rho : body -> R -> R; m_ye : body -> R -> R }.

Section Meaning.
(** the order of the rotations made by RotateToB1 *)
Variable order : list (nat * nat).
Variable m : media.

(** b1_proj[r][f] as built by 1662-1679: the parameters in use at that time *)
Definition stored_P (s : nus) (r f : nat) : mat :=
  rotate_b1 (q_numneu s) (mixing (q_numneu s) (p_angle (q_proj s r f)) (p_phase (q_proj s r f)) order) (ket_proj f).

(** H0_array[ie] as built by 1602-1615 *)
Definition stored_H (s : nus) (ie : nat) : mat :=
  h0 (q_numneu s) (h_osc (q_h0 s)) (h_dm (q_h0 s)) (nth ie (h_E (q_h0 s)) 0).

(** evol_b1_proj[r][f][ie] at clock [x] (278-326) *)
Definition used_P (s : nus) (ie r : nat) (x : R) : nat -> mat :=
  match basis_of (o_basis (q_opts s)) with
  | BMass => stored_P s r
  | _ => evolved (stored_H s ie) x (sq_t0 (q_sq s)) (stored_P s r)
  end.

(** the coefficients of HI at position [p] of body [b] (334-347) *)
Definition cc_at (t : nt) (r : nat) (b : body) (p : R) : R := fst (hi_coeffs (m_k m) t r (m_rho m b p) (m_ye m b p)).
Definition nc_at (t : nt) (r : nat) (b : body) (p : R) : R := snd (hi_coeffs (m_k m) t r (m_rho m b p) (m_ye m b p)).

(** right-hand side for node [ie] and type [r] at clock [x], in body [b], the
    position being the clock less [off] (280) *)
Definition slope (s : nus) (b : body) (off : R) (ie r : nat) (x : R) (A : mat) : mat :=
  rhs (q_numneu s)
    (hi (basis_of (o_basis (q_opts s))) (stored_H s ie) (cc_at (q_nt s) r b (x - off)) (nc_at (q_nt s) r b (x - off)) (used_P s ie r x))
    (gamma_rho false (fun _ => 0) (used_P s ie r x))
    (interactions_rho (q_numneu s) false false (fun _ => 0) (fun _ => 0) (used_P s ie r x)) A.

(** [dec n nr l ie r]: matrix of node [ie] and type [r] in the state [l] of an
    object with [n] flavours and [nr] types *)
Variable dec : nat -> nat -> list R -> nat -> nat -> mat.
Definition matrix (s : nus) (l : list R) (ie r : nat) : mat := dec (q_numneu s) (q_nrhos s) l ie r.

(** the external parts do what they are for *)
Record exact (e : env) : Prop := {
  ex_mk : forall s v b ie r, (ie < q_ne s)%nat -> (r < q_nrhos s)%nat ->
    meq (q_numneu s) (matrix s (e_mk e s v b) ie r) (ini_state (q_numneu s) (basis_of b) (stored_P s r) (v ie r));
  ex_solve : forall s dt ts t' st b off, e_solve e s dt = (ts, true, t', st) -> 0 <= dt ->
    q_body s = Some b -> q_offset s = Some off -> o_osc (q_opts s) = true -> h_osc (q_h0 s) = true ->
    o_int (q_opts s) = false -> o_src (q_opts s) = false ->
    forall ie r, (ie < q_ne s)%nat -> (r < q_nrhos s)%nat -> exists A : R -> mat,
      (forall x, sq_t (q_sq s) <= x <= sq_t (q_sq s) + dt -> mderiv (q_numneu s) A x (slope s b off ie r x (A x))) /\
      meq (q_numneu s) (A (sq_t (q_sq s))) (matrix s (sq_state (q_sq s)) ie r) /\
      meq (q_numneu s) (matrix s st ie r) (A (sq_t (q_sq s) + dt)) }.

(** H0(E, r) as asked again by GetExpectationValue: DM2 is kept from 1602-1607,
    the switch and the energy are the present ones *)
Definition read_H (s : nus) (ie : nat) : mat :=
  h0 (q_numneu s) (o_osc (q_opts s)) (h_dm (q_h0 s)) (nth ie (q_E s) 0).

(** EvalFlavorAtNode(k, ie, r) and EvalMassAtNode (1510-1528) *)
Definition content (s : nus) (ie r k : nat) : R :=
  eval_flavor (q_numneu s) (basis_of (o_basis (q_opts s))) (read_H s ie) (sq_t (q_sq s)) (sq_t0 (q_sq s))
    (stored_P s r) (matrix s (sq_state (q_sq s)) ie r) k.
Definition mass_content (s : nus) (ie r k : nat) : R :=
  eval_mass (q_numneu s) (basis_of (o_basis (q_opts s))) (read_H s ie) (sq_t (q_sq s)) (sq_t0 (q_sq s))
    (matrix s (sq_state (q_sq s)) ie r) k.

End Meaning.
