(** InteractionStructure: the cross-section and decay tables of an evolution
    object, its copies, moves and comparison — nuSQuIDS.h:138-293.

    An array is its extents and its items in storage order (marray copies and
    moves keep both: C10).  Items are of any type [D] with the comparison
    [deq] that == of doubles is; nothing is assumed about it (0 == -0, a NaN is
    not equal to itself).  Allocators are left out. *)
From Coq Require Import List Arith Bool ZArith.
Import ListNotations.

Section Struct.
Variable D : Type.
Variable deq : D -> D -> bool.

Record arr := Arr { a_shape : list nat; a_data : list D }.

(** 138-197 *)
Record istruct := Istruct {
  targets : list Z;                 (* PDG codes *)
  dNdE_CC : arr; dNdE_NC : arr; dNdE_GR : arr;
  sigma_CC : arr; sigma_NC : arr; sigma_GR : arr;
  tau_all : arr; tau_lep : arr }.

(** an empty marray: all extents 0 *)
Definition none_of (rank : nat) : arr := Arr (repeat 0 rank) [].

(** 198-209 *)
Definition new_struct : istruct :=
  Istruct [] (none_of 5) (none_of 5) (none_of 2) (none_of 4) (none_of 4) (none_of 1)
          (none_of 3) (none_of 3).

(** 280-285: the list of targets is not mentioned, so it is empty *)
Definition copy_ctor (o : istruct) : istruct :=
  Istruct [] (dNdE_CC o) (dNdE_NC o) (dNdE_GR o) (sigma_CC o) (sigma_NC o) (sigma_GR o)
          (tau_all o) (tau_lep o).

(** 286-292, the destination *)
Definition move_ctor (o : istruct) : istruct :=
  Istruct [] (dNdE_CC o) (dNdE_NC o) (dNdE_GR o) (sigma_CC o) (sigma_NC o) (sigma_GR o)
          (tau_all o) (tau_lep o).

(** 210-220 *)
Definition copy_assign (d o : istruct) : istruct :=
  Istruct (targets d) (dNdE_CC o) (dNdE_NC o) (dNdE_GR o) (sigma_CC o) (sigma_NC o) (sigma_GR o)
          (tau_all o) (tau_lep o).

(** 222-232, the destination *)
Definition move_assign (d o : istruct) : istruct :=
  Istruct (targets d) (dNdE_CC o) (dNdE_NC o) (dNdE_GR o) (sigma_CC o) (sigma_NC o) (sigma_GR o)
          (tau_all o) (tau_lep o).

(** marray::size *)
Definition size (a : arr) : nat := length (a_data a).

(** std::equal over the first range; the second must be as long, else it is
    read past its end ([None]) *)
Fixpoint std_equal (a b : list D) : option bool :=
  match a, b with
  | [], _ => Some true
  | x :: a', y :: b' => if deq x y then std_equal a' b' else Some false
  | _ :: _, [] => None
  end.

Definition check (a b : arr) (rest : option bool) : option bool :=
  match std_equal (a_data a) (a_data b) with
  | Some true => rest
  | other => other
  end.

(** 234-274 *)
Definition equal (s o : istruct) : option bool :=
  if negb (Nat.eqb (size (dNdE_CC s)) (size (dNdE_CC o)))
     || negb (Nat.eqb (size (dNdE_NC s)) (size (dNdE_NC o)))
     || negb (Nat.eqb (size (dNdE_GR s)) (size (dNdE_GR o)))
     || negb (Nat.eqb (size (sigma_CC s)) (size (sigma_CC o)))
     || negb (Nat.eqb (size (sigma_NC s)) (size (sigma_NC o)))
     || negb (Nat.eqb (size (sigma_GR s)) (size (sigma_GR o)))
     || negb (Nat.eqb (size (tau_all s)) (size (tau_all o)))
     || negb (Nat.eqb (size (tau_lep s)) (size (tau_lep o)))
  then Some false
  else
    check (dNdE_CC s) (dNdE_CC o) (check (dNdE_NC s) (dNdE_NC o) (check (dNdE_GR s) (dNdE_GR o)
    (check (sigma_CC s) (sigma_CC o) (check (sigma_NC s) (sigma_NC o) (check (sigma_GR s) (sigma_GR o)
    (check (tau_all s) (tau_all o) (check (tau_lep s) (tau_lep o) (Some true)))))))).

(** 276-278 *)
Definition not_equal (s o : istruct) : option bool := option_map negb (equal s o).

(** The extents given by InitializeInteractionVectors — nuSQuIDS.cpp:259-276;
    [w] is the number of nodes rounded up. *)
Definition sized_for (ntargets nrhos numneu ne w : nat) (s : istruct) : Prop :=
  a_shape (dNdE_CC s) = [ntargets; nrhos; numneu; ne; w] /\
  a_shape (dNdE_NC s) = [ntargets; nrhos; numneu; ne; w] /\
  a_shape (dNdE_GR s) = [ne; w] /\
  a_shape (sigma_CC s) = [ntargets; nrhos; numneu; w] /\
  a_shape (sigma_NC s) = [ntargets; nrhos; numneu; w] /\
  a_shape (sigma_GR s) = [w] /\
  a_shape (tau_all s) = [nrhos; ne; w] /\
  a_shape (tau_lep s) = [nrhos; ne; w].

(** marray keeps as many items as the extents say *)
Definition filled (a : arr) : Prop := length (a_data a) = fold_right Nat.mul 1 (a_shape a).
Definition well (s : istruct) : Prop :=
  filled (dNdE_CC s) /\ filled (dNdE_NC s) /\ filled (dNdE_GR s) /\ filled (sigma_CC s) /\
  filled (sigma_NC s) /\ filled (sigma_GR s) /\ filled (tau_all s) /\ filled (tau_lep s).

End Struct.

Arguments Arr {D}. Arguments a_shape {D}. Arguments a_data {D}. Arguments Istruct {D}.
Arguments targets {D}. Arguments dNdE_CC {D}. Arguments dNdE_NC {D}. Arguments dNdE_GR {D}.
Arguments sigma_CC {D}. Arguments sigma_NC {D}. Arguments sigma_GR {D}.
Arguments tau_all {D}. Arguments tau_lep {D}.
Arguments copy_ctor {D}. Arguments move_ctor {D}. Arguments copy_assign {D}. Arguments move_assign {D}.
Arguments equal {D}. Arguments not_equal {D}. Arguments size {D}. Arguments std_equal {D}. Arguments check {D}.
Arguments filled {D}. Arguments well {D}. Arguments sized_for {D}.
