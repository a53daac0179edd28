(** linspace and logspace, tools.cpp 105-135, with doubles ([DblModel]); log and exp are parameters. *)
From Coq Require Import List Arith ZArith.
From Coq Require Import SpecFloat.
From Verif Require Import Err DblModel.
Import ListNotations.

(** double(n) of an unsigned int. *)
Definition of_count (n : nat) : double := binary_normalize 53 1024 (Z.of_nat n) 0 false.
(** The loops, 112-113 and 129-131: the values stored by [k] turns; the point is moved on by the rounded step. *)
Fixpoint points (g : double -> double) (k : nat) (e step : double) : list double :=
  match k with 0 => [] | S k' => g e :: points g k' (dadd e step) step end.
(** 105-117 *)
Definition lin (emin emax : double) (div : nat) : outcome (list double) :=
  match div with
  | 0 => Throw LogicError
  | S d => Ok (points (fun e => e) d emin (ddiv (dsub emax emin) (of_count d)) ++ [emax])
  end.
(** 119-135; with one point it is stored twice, Emax last. *)
Definition log_lin (log exp : double -> double) (emin emax : double) (div : nat) : outcome (list double) :=
  match div with
  | 0 => Throw LogicError
  | 1 => Ok [emax]
  | S (S d) =>
      let step := ddiv (dsub (log emax) (log emin)) (of_count (S d)) in
      Ok (emin :: points exp d (dadd (log emin) step) step ++ [emax])
  end.
