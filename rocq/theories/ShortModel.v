(** The constant-density shortcut of EvolveState with the meaning of EndModel.

    nuSQuIDS.cpp:1258-1285: PreDerive is called once, at the end of the leg;
    then each matrix of the state is conjugated with exp(-i HI L), HI being
    asked in the mass basis with the density found there.  That UTransform
    makes this conjugation is SQuIDS's part and stands here as the equation
    it solves (c69_shortcut_solves: conjugating with a propagator does). *)
From Coq Require Import Reals List Arith Bool.
From Verif Require Import IntModel XsModel StateModel CMatrix FlavorModel EndModel.
Local Open Scope R_scope.

Section Shortcut.
Variable order : list (nat * nat).
Variable m : media.
Variable dec : nat -> nat -> list R -> nat -> nat -> mat.

(** HI(ie, r) after PreDerive (334-360): density and electron fraction at the
    position of the trajectory, projectors as SetIniFlavorProyectors left them *)
Definition const_H (s : nus) (b : body) (ie r : nat) : mat :=
  hi BMass (stored_H s ie) (cc_at m (q_nt s) r b (q_x s)) (nc_at m (q_nt s) r b (q_x s)) (stored_P order s r).

(** the loop of 1271-1284 *)
Definition exact_const (e : env) : Prop := forall s len b, q_body s = Some b ->
  forall ie r, (ie < q_ne s)%nat -> (r < q_nrhos s)%nat -> exists A : R -> mat,
    (forall x, mderiv (q_numneu s) A x (coherent (q_numneu s) (const_H s b ie r) (A x))) /\
    meq (q_numneu s) (A 0) (matrix dec s (sq_state (q_sq s)) ie r) /\
    meq (q_numneu s) (matrix dec s (e_const e s len) ie r) (A len).
End Shortcut.

(** IsConstantDensity (body.h) says that density and electron fraction do not
    depend on the position *)
Definition steady (m : media) : Prop := forall b p p', b_const b = true -> m_rho m b p = m_rho m b p' /\ m_ye m b p = m_ye m b p'.
