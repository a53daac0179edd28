(** What should be read from an ensemble: along each angle the equation of FullSpec, in between the angles and energies
    the interpolation nuSQuIDS is known for. *)
From Coq Require Import Reals List Arith Bool.
From Verif Require Import IntModel StateModel AtmModel AtmLifeModel CMatrix FlavorModel EndModel EndProps FullSpec AtmEvalProofs.
Import ListNotations.
Local Open Scope R_scope.

(** ** The journey told by the calls *)
Section Journey.
Variable e : env.
Variable a0 : atm.
(** the ensemble after calls, latest first *)
Fixpoint after (h : list (acall * res)) : atm :=
  match h with [] => a0 | (c, _) :: h => snd (aexec e c (after h)) end.

(** calls that touch neither state nor parameters *)
Definition aharmless (c : acall) : bool :=
  match c with
  | ASet (BTau _) | ASet (BGlashow _) | ASet (BOsc _) | ASet (BConst _) | ASet (BPos _) | ASet (BScale _) | ASet (BSources _)
  | AEarth _ | AXs _ | AStep _ | AStepAt _ _ | AThreads _ _ => true
  | _ => false end.
Definition sets_state (c : acall) : bool := match c with AInit3 _ _ _ _ _ | AInit4 _ _ _ _ _ _ => true | _ => false end.
(** what is put in: angle, energy, kind, flavour *)
Definition put (c : acall) : StateModel.basis * (nat -> nat -> nat -> nat -> R) :=
  match c with
  | AInit3 _ _ _ v b => (b, fun i ie _ f => v i ie f)
  | AInit4 _ _ _ _ v b => (b, v)
  | _ => (StateModel.BInter, fun _ _ _ _ => 0) end.

(** the crossings since the state was last set: what was put in, and the ensemble after each of them.  With several
    threads a failure at a node is not reported (C57); none must happen, as the same without threads would tell. *)
Inductive crossed : list (acall * res) -> StateModel.basis -> (nat -> nat -> nat -> nat -> R) -> list atm -> Prop :=
| cr_put c h b v : sets_state c = true -> put c = (b, v) -> crossed ((c, Done) :: h) b v []
| cr_evolve h b v l : crossed h b v l -> a_earth (after h) <> None -> fst (aexec e AEvolve (with_threads 1 (after h))) = Done ->
    crossed ((AEvolve, Done) :: h) b v (l ++ [after ((AEvolve, Done) :: h)])
| cr_other c r h b v l : crossed h b v l -> aharmless c = true \/ (sets_state c = true /\ r = Threw) ->
    crossed ((c, r) :: h) b v l.
End Journey.

(** neither shortcut, positivity enforcement nor no-oscillation mode were ever asked for *)
Definition aoscillating (h : list (acall * res)) : Prop := forall c r, In (c, r) h ->
  match c with ASet (BConst true) | ASet (BPos true) | ASet (BOsc false) => False | _ => True end.

(** ** The equation along each angle *)
Section Law.
Variable order : list (nat * nat).
Variable m : media.
Variable emission : body -> R -> nat -> nat -> nat -> R.
Variable tab : tabs -> list R -> nt -> itables.

(** the stages of the neutrinos of angle [i]: each time through the medium of then, along the trajectory of the angle *)
Definition stages (i : nat) (l : list atm) (gs : list stage) : Prop :=
  Forall2 (fun a g => exists s b t, nth_error (a_nodes a) i = Some s /\ a_earth a = Some b /\ q_track s = Some t /\
    g = stage_of tab s (Leg b 0 (length_of t))) l gs.

(** the flavours, parameters and energies of an ensemble *)
Definition world (a : atm) : object :=
  match a_nodes a with s :: _ => object_of s
  | [] => Object 0 (fun _ _ => 0) (fun _ _ => 0) (fun _ => 0) Nu 0 0 (fun _ => 0) false end.

(** [B i e r]: matrices in the mass basis at angle [i] after the crossings *)
Definition solved (a : atm) (path : nat -> track) (b : StateModel.basis) (v : nat -> nat -> nat -> nat -> R) (l : list atm)
    (B : nat -> nat -> nat -> mat) : Prop :=
  forall i, (i < length (a_cos a))%nat -> exists gs, stages i l gs /\
    outcome_is order m emission (world a) (tr_ini (path i)) (basis_of b) (v i) gs (B i).

(** *** In between: vacuum oscillation over [T] at the energy of the node undone, over [T'] at energy [E] done instead *)
Definition vac (w : object) (E : R) : mat := h0 (ob_n w) true (ob_dm w) E.
Definition moved (w : object) (j : nat) (T E T' : R) (A : mat) : mat :=
  FlavorModel.evolve (vac w E) (- T') (FlavorModel.evolve (vac w (ob_E w j)) T A).

(** content of flavour [f] of the matrix at angle [i] and energy [j], [n] crossings made, moved to energy [E] and the
    trajectories of length [T'] *)
Definition taken (w : object) (path : nat -> track) (n : nat) (B : nat -> nat -> nat -> mat) (f r : nat) (T' E : R) (i j : nat) : R :=
  expect (ob_n w) (flavour order (at_node w j r) f) (moved w j (INR n * length_of (path i)) E (INR n * T') (B i j r)).
(** bilinear interpolation in cosine and energy between the four neighbours *)
Definition interpolated (w : object) (path : nat -> track) (n : nat) (B : nat -> nat -> nat -> mat) (cos Es : list R)
    (f r : nat) (c T' E val : R) : Prop :=
  exists i j, bracket cos c i /\ bracket Es E j /\
    let q := taken w path n B f r T' E in
    val = mix (weight cos c i) (mix (weight Es E j) (q i j) (q i (S j))) (mix (weight Es E j) (q (S i) j) (q (S i) (S j))).
End Law.
