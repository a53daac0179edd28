(** Neutrinos emitted by the medium: Set_NeutrinoSources (include/nuSQuIDS/nuSQuIDS.h:1046-1061), the part of
    nuSQUIDS::PreDerive that asks the medium (src/nuSQuIDS.cpp:278-285), what InteractionsRho adds (374-428), and EmittingVacuum
    (examples/Extended_Source/nu_source.h:23-40). Doubles are reals. What SQuIDS does with the term is in FlavorModel, the
    shortcut without oscillations in IntModel. *)
From Coq Require Import List Arith Bool Reals.
From Verif Require Import Err.
Import ListNotations.
Local Open Scope R_scope.

(** marray<double,3>: node, kind, flavour *)
Definition flux3 := nat -> nat -> nat -> R.
(** Body::injected_neutrino_flux (body.h:133): the default does nothing; an emitting medium writes every entry of a box of the sizes
    the object tells it, given the position on the track *)
Inductive emitter := Silent | Emitting (g : R -> flux3).
(** nu_source.h:30-39 *)
Definition emitting_vacuum (flavor : nat) (decay_length : R) : emitter :=
  Emitting (fun x _ _ flv => if Nat.eqb flv flavor then exp (- x / decay_length) else 0).

(** [s_other]: the flag of SQuIDS that makes it ask for InteractionsRho. [s_ext]: extents of current_external_flux (all zero until it is
    resized). *)
Record sobj := SObj {
  s_ne : nat; s_nrho : nat; s_nneu : nat; s_inter : bool; s_on : bool; s_other : bool;
  s_ext : nat * nat * nat; s_flux : flux3; s_body : emitter }.

(** constructors: src/nuSQuIDS.cpp:246-249 switch the other terms on with interactions; nuSQuIDS.h:501 *)
Definition fresh (ne nrho nneu : nat) (inter : bool) : sobj :=
  SObj ne nrho nneu inter false inter (0%nat, 0%nat, 0%nat) (fun _ _ _ => 0) Silent.

(** nuSQuIDS.h:1047-1055 *)
Definition set_sources (b : bool) (o : sobj) : sobj :=
  SObj (s_ne o) (s_nrho o) (s_nneu o) (s_inter o) b (s_other o || (negb (s_inter o) && b))
       (if b then (s_ne o, s_nrho o, s_nneu o) else s_ext o) (if b then fun _ _ _ => 0 else s_flux o) (s_body o).
(** Set_Body, src/nuSQuIDS.cpp:1196-1199: the medium only *)
Definition set_body (e : emitter) (o : sobj) : sobj :=
  SObj (s_ne o) (s_nrho o) (s_nneu o) (s_inter o) (s_on o) (s_other o) (s_ext o) (s_flux o) e.
(** ReadStateHDF5, src/nuSQuIDS.cpp (init with the sizes in the file; the medium in the file). Nothing is said of the
    sources; that SQuIDS keeps its flag is assumed (its source is not here). *)
Definition reread (ne nrho nneu : nat) (inter : bool) (e : emitter) (o : sobj) : sobj :=
  SObj ne nrho nneu inter (s_on o) (s_other o || inter) (s_ext o) (s_flux o) e.

Definition same3 (a b : nat * nat * nat) : bool :=
  match a, b with (a1, a2, a3), (b1, b2, b3) => Nat.eqb a1 b1 && Nat.eqb a2 b2 && Nat.eqb a3 b3 end.
Definition box (n1 n2 n3 i j k : nat) : bool := Nat.ltb i n1 && Nat.ltb j n2 && Nat.ltb k n3.
(** PreDerive, 282-285, at position [x]. With an array of other extents the medium writes outside its rows, or the assert fails: UB. *)
Definition pre_derive (x : R) (o : sobj) : outcome sobj :=
  if s_on o then
    if same3 (s_ext o) (s_ne o, s_nrho o, s_nneu o) then
      Ok (match s_body o with
          | Silent => o
          | Emitting g => SObj (s_ne o) (s_nrho o) (s_nneu o) (s_inter o) (s_on o) (s_other o) (s_ext o)
                            (fun i j k => if box (s_ne o) (s_nrho o) (s_nneu o) i j k then g x i j k else s_flux o i j k) (s_body o)
          end)
    else UB
  else Ok o.

(** InteractionsRho 378-387 and 407-428: what is added along the projector of flavour [k], if SQuIDS asks for the term at all *)
Definition injected (o : sobj) (i j k : nat) : R :=
  if s_other o then if s_on o then s_flux o i j k else 0 else 0.

(** Histories *)
Inductive sop := OSources (b : bool) | OBody (e : emitter) | ODerive (x : R) | OReread (ne nrho nneu : nat) (inter : bool) (e : emitter).
Definition sstep (p : sop) (o : sobj) : outcome sobj :=
  match p with
  | OSources b => Ok (set_sources b o)
  | OBody e => Ok (set_body e o)
  | ODerive x => pre_derive x o
  | OReread a b c d e => Ok (reread a b c d e o)
  end.
Fixpoint srun (l : list sop) (o : sobj) : outcome sobj := match l with [] => Ok o | p :: l' => obind (sstep p o) (srun l') end.

(** EvolveState 1259-1291: with a medium of constant density, no interactions and the shortcut allowed the medium is asked once and the
    states are turned ([turn], UTransform); otherwise the equation is solved ([solve]), asking at the positions [xs]. [term] is the
    added term at each position. *)
Section Evolve.
  Variable state : Type.
  Variable turn : state -> state.
  Variable solve : (R -> flux3) -> state -> state.
  Definition evolve_sources (allowed constant : bool) (o : sobj) (rho : state) : state :=
    if constant && negb (s_inter o) && allowed then turn rho
    else solve (fun x => match pre_derive x o with Ok o' => injected o' | _ => fun _ _ _ => 0 end) rho.
End Evolve.
