(** Specification vocabulary for arrays, independent of the loops in the code: an array is a function from index tuples to elements. *)
From Coq Require Import List Arith ZArith Lia Bool.
From Verif Require Import Err MarrayModel.
Import ListNotations.

(** Row-major position: the sum over dimensions of the index times the product of all later extents. *)
Fixpoint rowmajor (es idx : list nat) : nat :=
  match es, idx with
  | _ :: es', i :: is' => i * prod es' + rowmajor es' is'
  | _, _ => 0
  end.

(** The element at an index tuple. *)
Definition at_idx {A} (a : marray A) (idx : list nat) : option A := nth_error (flat a) (rowmajor (exts a) idx).

(** Change coordinate [k] of a tuple; insert a coordinate at position [k]. *)
Definition set_coord (idx : list nat) (k v : nat) : list nat := firstn k idx ++ v :: skipn (S k) idx.
Definition ins_coord (idx : list nat) (k v : nat) : list nat := firstn k idx ++ v :: skipn k idx.

(** Sum of f over 0..n-1. *)
Fixpoint sum_upto (n : nat) (f : nat -> Z) : Z :=
  match n with 0 => 0%Z | S k => (sum_upto k f + f k)%Z end.

(** Broadcasting, aligned at the last dimension: coordinate 0 where the operand's extent is 1, no coordinate for missing leading dimensions. *)
Definition bc_coord (e i : nat) : nat := if Nat.eqb e 1 then 0 else i.
Fixpoint map2 {A B C} (f : A -> B -> C) (x : list A) (y : list B) : list C :=
  match x, y with a :: x', b :: y' => f a b :: map2 f x' y' | _, _ => [] end.
Definition bc_idx (es idx : list nat) : list nat :=
  map2 bc_coord es (skipn (length idx - length es) idx).

(** Two extents are compatible when equal or one of them is 1. Shapes are compatible when aligned extents are. *)
Definition ext_compat (a b : nat) : Prop := a = b \/ a = 1 \/ b = 1.
Fixpoint compat_rev (e1 e2 : list nat) : Prop :=
  match e1, e2 with
  | a :: e1', b :: e2' => ext_compat a b /\ compat_rev e1' e2'
  | _, _ => True
  end.
Definition compatible (e1 e2 : list nat) : Prop := compat_rev (rev e1) (rev e2).
