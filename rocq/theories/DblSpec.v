(** What a look-up with any double should do. *)
From Coq Require Import List Arith ZArith.
From Coq Require Import SpecFloat.
From Verif Require Import DblModel.
Import ListNotations.

(** Not NaN. *)
Definition number (x : double) : Prop := x <> S754_nan.
(** Neither NaN nor an infinity. *)
Definition finite (x : double) : Prop := match x with S754_zero _ | S754_finite _ _ _ => True | _ => False end.
Definition less (a b : double) : Prop := SFcompare a b = Some Lt.
(** Equal as numbers: the two zeros are. *)
Definition same (a b : double) : Prop := SFcompare a b = Some Eq.
Definition at_most (a b : double) : Prop := less a b \/ same a b.
Definition increasing (xs : list double) : Prop :=
  Forall number xs /\ forall i j, i < j -> j < length xs -> less (nth i xs S754_nan) (nth j xs S754_nan).
(** Interval [i] of the table is the one to use for [x]: the ends stand for all beyond them. *)
Definition right_interval (xs : list double) (intervals i : nat) (x : double) : Prop :=
  i < intervals /\
  (i = 0 \/ at_most (nth i xs S754_nan) x) /\
  (S i = intervals \/ less x (nth (S i) xs S754_nan)).
