(** The adaptive quadrature of AdaptiveQuad.h and fastInt of xsections.cpp with an integrand which may be NaN.
    Places are reals as in [QuadModel]; the value of the integrand is a real or NaN ([None]); operations give NaN if
    an operand is, comparisons with it are false.  Infinities are left out. *)
From Coq Require Import List Arith Reals.
From Verif Require Import Err QuadModel.
Import ListNotations.
Local Open Scope R_scope.

Definition value := option R.
Definition lift2 (op : R -> R -> R) (a b : value) : value := match a, b with Some x, Some y => Some (op x y) | _, _ => None end.
Definition vadd := lift2 Rplus.
Definition vsub := lift2 Rminus.
Definition vscale (k : R) (a : value) : value := option_map (Rmult k) a.
Definition vabs (a : value) : value := option_map Rabs a.
Definition vle0 (a : value) : bool := match a with Some x => if Rle_dec x 0 then true else false | None => false end.
(** [a==0], [a!=0], [0<a && a<1]. *)
Definition vzero (a : value) : bool := match a with Some x => if Req_EM_T x 0 then true else false | None => false end.

(** Interval, AdaptiveQuad.h 48-121. *)
Record nint := NInt { na : R; nb : R; nfa : value; nfb : value; nsa : R; nsb : R; nfsa : value; nfsb : value; nvalue : value; nest2 : value }.
Record ntotals := NTotals { ntotal : value; ncomp : value; nunc : value; noot : bool }.

Section Nan.
Variable f : R -> value.
(** y[i], 92-97. *)
Definition nyv (a b : R) (fa fb : value) (i : nat) : value := match i with 0%nat => fa | 12%nat => fb | _ => f (pt a b i) end.
(** evaluate(f), 70-111. *)
Definition nevaluate (a b : R) (fa fb : value) : nint :=
  let y := nyv a b fa fb in let h := (b - a) / 2 in
  NInt a b fa fb (pt a b 4) (pt a b 8) (y 4%nat) (y 8%nat)
    (vscale (h / 1470) (vadd (vadd (vadd (vscale 77 (vadd (y 0%nat) (y 12%nat))) (vscale 432 (vadd (y 2%nat) (y 10%nat))))
                                   (vscale 625 (vadd (y 4%nat) (y 8%nat)))) (vscale 672 (y 6%nat))))
    (vscale (h / 6) (vadd (vadd (y 0%nat) (y 12%nat)) (vscale 5 (vadd (y 4%nat) (y 8%nat))))).
(** The 13-point estimate, 114-120. *)
Definition nkronrod13 (a b : R) (fa fb : value) : value :=
  let y := nyv a b fa fb in let h := (b - a) / 2 in
  vscale h (vadd (vadd (vadd (vadd (vadd (vadd
       (vscale (158271919734802 / 10 ^ 16) (vadd (y 0%nat) (y 12%nat)))
       (vscale (942738402188500 / 10 ^ 16) (vadd (y 1%nat) (y 11%nat))))
       (vscale (1550719873365850 / 10 ^ 16) (vadd (y 2%nat) (y 10%nat))))
       (vscale (1888215739601820 / 10 ^ 16) (vadd (y 3%nat) (y 9%nat))))
       (vscale (1997734052268590 / 10 ^ 16) (vadd (y 4%nat) (y 8%nat))))
       (vscale (224926465333340 / 10 ^ 15) (vadd (y 5%nat) (y 7%nat))))
       (vscale (242611071901408 / 10 ^ 15) (y 6%nat))).
(** 123-135 *)
Definition ncan (i : nint) : bool :=
  if Rlt_dec (32 * epsilon * Rmax (Rabs (na i)) (Rabs (nb i))) (nb i - na i) then true else false.
(** 138-140 *)
Definition nbadness (i : nint) (tol : value) : value := vsub (vabs (vsub (nvalue i) (nest2 i))) tol.
(** 238-249 *)
Definition naccumulate (t : ntotals) (i : nint) : ntotals :=
  let y := vsub (nvalue i) (ncomp t) in
  let s := vadd (ntotal t) y in
  let d := vsub (nvalue i) (nest2 i) in
  NTotals s (vsub (vsub s (ntotal t)) y) (vadd (nunc t) (lift2 Rmult d d)) (orb (noot t) (negb (ncan i))).
(** 262-270 *)
Definition nprocess (tol : value) (st : ntotals * list nint) (i : nint) : ntotals * list nint :=
  let (t, stack) := st in
  if orb (vle0 (nbadness i tol)) (negb (ncan i)) then (naccumulate t i, stack) else (t, i :: stack).
(** 251-259 *)
Definition nsplit3 (i : nint) : list nint :=
  [nevaluate (na i) (nsa i) (nfa i) (nfsa i); nevaluate (nsa i) (nsb i) (nfsa i) (nfsb i); nevaluate (nsb i) (nb i) (nfsb i) (nfb i)].
(** 250-274: [None] is not finished after [fuel] turns. *)
Fixpoint nloop (fuel : nat) (tol : value) (t : ntotals) (stack : list nint) : option ntotals :=
  match stack with
  | [] => Some t
  | i :: rest =>
      match fuel with
      | O => None
      | S n => let (t', stack') := fold_left (nprocess tol) (nsplit3 i) (t, rest) in nloop n tol t' stack'
      end
  end.
(** integrate, 179-280, the integral only; values for the ends which are NaN are not supplied (194, 200). [R>0 && R<1] with a NaN is false. *)
Definition nintegrate (fuel : nat) (a0 b0 tol0 : R) (gfa gfb : value) : option (outcome value) :=
  if Rlt_dec tol0 epsilon then Some (Throw RuntimeError) else
  let reverse := if Rlt_dec b0 a0 then true else false in
  let (a, b) := if reverse then (b0, a0) else (a0, b0) in
  let fa := match gfa with Some v => Some v | None => f a end in
  let fb := match gfb with Some v => Some v | None => f b end in
  let i := nevaluate a b fa fb in
  if negb (ncan i) then Some (Throw RuntimeError) else
  let is1 := nkronrod13 a b fa fb in
  let erri1 := vabs (vsub (nvalue i) is1) in
  let erri2 := vabs (vsub (nest2 i) is1) in
  let ratio := if vzero erri2 then Some 1 else lift2 Rdiv erri1 erri2 in
  let tol := match ratio with
             | Some q => if Rlt_dec 0 q then (if Rlt_dec q 1 then tol0 / q else tol0) else tol0
             | None => tol0 end in
  let is := if vzero is1 then Some (b - a) else is1 in
  let tol := vscale tol (vabs is) in
  let sign := fun v => if reverse then option_map Ropp v else v in
  if vle0 (nbadness i tol) then Some (Ok (sign is1))
  else match nloop fuel tol (NTotals (Some 0) (Some 0) (Some 0) false) [i] with
       | None => None
       | Some t => Some (Ok (sign (ntotal t)))
       end.
(** checkAgreement, xsections.cpp 54-59, and fastInt, 50-91. *)
Definition nagree (e1 e2 : value) (tol : R) : bool :=
  match e1, e2 with Some x, Some y => agree x y tol | _, _ => false end.
Definition nfast_int (fuel : nat) (a b tol : R) : option (outcome value) :=
  let h := (b - a) / 2 in
  let y := fun i => f (midpoint a b + fast_abscissa i * h) in
  if nagree (y 0%nat) (y 4%nat) tol then Some (Ok (vscale h (vadd (y 0%nat) (y 4%nat)))) else
  let Legendre2 := vadd (y 1%nat) (y 3%nat) in
  let Lobatto2 := vadd (y 0%nat) (y 4%nat) in
  if nagree Legendre2 Lobatto2 tol then Some (Ok (vscale h Legendre2)) else
  let Lobatto3 := vscale (/ 3) (vadd (vadd (y 0%nat) (vscale 4 (y 2%nat))) (y 4%nat)) in
  if nagree Legendre2 Lobatto3 tol then Some (Ok (vscale h Lobatto3)) else
  nintegrate fuel a b tol (y 0%nat) (y 4%nat).
End Nan.
