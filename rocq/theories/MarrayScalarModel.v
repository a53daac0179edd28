(** Operators between an array and a scalar. Source: /repo/include/nuSQuIDS/marray.h 1391-1593.
    Elements are real numbers; rounding is not modelled. *)
From Coq Require Import List Arith Reals.
From Verif Require Import Err MarrayModel.
Import ListNotations.

(** How the scalar operand [const U& f] is bound: to a value of its own, or to an element of the array being modified. *)
Inductive scalar := SVal (v : R) | SElem (k : nat).

(** "for(auto& i : a) i op= f" 1474-1477, 1492-1495, 1520-1523, 1552-1554: positions from [i] on; [f] is read again for
    every element. An element reference outside the array is UB. *)
Fixpoint scal_loop (op : R -> R -> R) (n i : nat) (d : list R) (f : scalar) : outcome (list R) :=
  match n with
  | 0 => Ok d
  | S n' =>
      match nth_error d i, (match f with SVal v => Some v | SElem k => nth_error d k end) with
      | Some x, Some v => scal_loop op n' (S i) (set_nth d i (op x v)) f
      | _, _ => UB
      end
  end.
Definition scal_assign (op : R -> R -> R) (a : marray R) (f : scalar) : outcome (marray R) :=
  obind (scal_loop op (length (flat a)) 0 (flat a) f) (fun d => Ok (MArr (exts a) d)).

(** Unary minus, 1391-1401. *)
Definition neg_arr (a : marray R) : marray R := MArr (exts a) (map Ropp (flat a)).

(** Binary forms work on a copy, so an element reference into the operand is a value of its own.
    1485-1494 (a+f, f+a), 1511-1519 (a-f, f-a), 1537-1545 (a*f, f*a), 1583-1593 (a/f, f/a). *)
Definition arr_plus_scal (a : marray R) (f : R) := scal_assign Rplus a (SVal f).
Definition scal_plus_arr (f : R) (a : marray R) := scal_assign Rplus a (SVal f).
Definition arr_minus_scal (a : marray R) (f : R) := scal_assign Rminus a (SVal f).
Definition scal_minus_arr (f : R) (a : marray R) := scal_assign Rplus (neg_arr a) (SVal f).
Definition arr_mult_scal (a : marray R) (f : R) := scal_assign Rmult a (SVal f).
Definition scal_mult_arr (f : R) (a : marray R) := scal_assign Rmult a (SVal f).
Definition arr_div_scal (a : marray R) (f : R) := scal_assign Rdiv a (SVal f).
Definition scal_div_arr (f : R) (a : marray R) := scal_assign Rdiv a (SVal f).

(** Compound assignment between arrays, 1405-1470: flat pairwise; the assert on equal total size is a precondition. The shapes are not compared. *)
Definition arr_assign_op (op : R -> R -> R) (a1 a2 : marray R) : outcome (marray R) :=
  if Nat.eqb (length (flat a1)) (length (flat a2))
  then Ok (MArr (exts a1) (zip_with op (flat a1) (flat a2))) else UB.

(** Elementwise functions, 1880-1895. *)
Definition map_arr (f : R -> R) (a : marray R) : marray R := MArr (exts a) (map f (flat a)).
