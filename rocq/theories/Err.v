(** Outcomes of C++ calls used by all models.
    [Ok v]    : the call returned v
    [Throw k] : the call left by an exception of kind k
    [UB]      : the call has undefined behaviour (out of bounds access, use of an uninitialised value, ...) *)
From Coq Require Import List Arith ZArith Lia Bool.
Import ListNotations.

Inductive exn := LogicError | RuntimeError | BadAlloc | OutOfRange | OtherExn.

Inductive outcome (A : Type) : Type :=
| Ok (a : A)
| Throw (e : exn)
| UB.
Arguments Ok {A} a.
Arguments Throw {A} e.
Arguments UB {A}.

Definition obind {A B : Type} (x : outcome A) (f : A -> outcome B) : outcome B :=
  match x with Ok a => f a | Throw e => Throw e | UB => UB end.

Definition is_ok {A} (x : outcome A) : Prop := exists a, x = Ok a.
Definition is_throw {A} (x : outcome A) : Prop := exists e, x = Throw e.
