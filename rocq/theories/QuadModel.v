(** Model of include/nuSQuIDS/AdaptiveQuad.h and of fastInt, src/xsections.cpp 50-91. Doubles are reals (the decimal constants are kept as
    written); an integrand is a function; NaN, used for "not supplied", is [None]. *)
From Coq Require Import List Arith Reals.
From Verif Require Import Err.
Import ListNotations.
Local Open Scope R_scope.

Definition epsilon : R := / 2 ^ 52.

(** midpoint, 33-46 *)
Definition midpoint (a b : R) : R := (a - a / 2) + b / 2.

(** The abscissas, 74-81. *)
Definition alpha : R := sqrt (2 / 3).
Definition beta : R := 1 / sqrt 5.
Definition x1 : R := 942882415695480 / 10 ^ 15.
Definition x2 : R := 641853342345781 / 10 ^ 15.
Definition x3 : R := 236383199662150 / 10 ^ 15.
Definition abscissa (i : nat) : R :=
  nth i [-1; - x1; - alpha; - x2; - beta; - x3; 0; x3; beta; x2; alpha; x1; 1] 0.

(** An evaluated Interval, 48-121. [value]: 7-point estimate; [est2]: 4-point estimate. *)
Record interval := Interval { ia : R; ib : R; ifa : R; ifb : R; spa : R; spb : R; fspa : R; fspb : R; value : R; est2 : R }.

Section Quad.
Variable f : R -> R.

Definition pt (a b : R) (i : nat) : R := midpoint a b + abscissa i * ((b - a) / 2).
(** y[i], 92-97; the values at the ends are those given. *)
Definition yv (a b fa fb : R) (i : nat) : R := match i with 0%nat => fa | 12%nat => fb | _ => f (pt a b i) end.
(** Interval(a,b,fa,fb) followed by evaluate(f), 70-111. *)
Definition evaluate (a b fa fb : R) : interval :=
  let y := yv a b fa fb in let h := (b - a) / 2 in
  Interval a b fa fb (pt a b 4) (pt a b 8) (y 4%nat) (y 8%nat)
    ((h / 1470) * (77 * (y 0%nat + y 12%nat) + 432 * (y 2%nat + y 10%nat) + 625 * (y 4%nat + y 8%nat) + 672 * y 6%nat))
    ((h / 6) * (y 0%nat + y 12%nat + 5 * (y 4%nat + y 8%nat))).
(** The 13-point estimate returned by evaluate(f,true), 114-120. *)
Definition kronrod13 (a b fa fb : R) : R :=
  let y := yv a b fa fb in let h := (b - a) / 2 in
  h * (158271919734802 / 10 ^ 16 * (y 0%nat + y 12%nat) +
       942738402188500 / 10 ^ 16 * (y 1%nat + y 11%nat) +
       1550719873365850 / 10 ^ 16 * (y 2%nat + y 10%nat) +
       1888215739601820 / 10 ^ 16 * (y 3%nat + y 9%nat) +
       1997734052268590 / 10 ^ 16 * (y 4%nat + y 8%nat) +
       224926465333340 / 10 ^ 15 * (y 5%nat + y 7%nat) +
       242611071901408 / 10 ^ 15 * y 6%nat).

(** 123-135 *)
Definition can_subdivide (i : interval) : bool :=
  if Rlt_dec (32 * epsilon * Rmax (Rabs (ia i)) (Rabs (ib i))) (ib i - ia i) then true else false.
(** 138-140 *)
Definition badness (i : interval) (tol : R) : R := Rabs (value i - est2 i) - tol.

(** The running totals, 238-249: compensated sum, sum of squared differences; and the flag, 237. *)
Record totals := Totals { total : R; comp : R; unc : R; oot : bool }.
Definition accumulate (t : totals) (i : interval) : totals :=
  let y := value i - comp t in
  let s := total t + y in
  Totals s ((s - total t) - y) (unc t + (value i - est2 i) * (value i - est2 i)) (orb (oot t) (negb (can_subdivide i))).
(** processSubinterval, 262-270. The stack grows at the front. *)
Definition process (tol : R) (st : totals * list interval) (i : interval) : totals * list interval :=
  let (t, stack) := st in
  if orb (if Rle_dec (badness i tol) 0 then true else false) (negb (can_subdivide i)) then (accumulate t i, stack) else (t, i :: stack).
(** One turn of the loop, 251-273. *)
Definition split3 (i : interval) : list interval :=
  [evaluate (ia i) (spa i) (ifa i) (fspa i); evaluate (spa i) (spb i) (fspa i) (fspb i); evaluate (spb i) (ib i) (fspb i) (ifb i)].
(** The loop, 250-274. [None]: not finished after [fuel] turns. *)
Fixpoint quad_loop (fuel : nat) (tol : R) (t : totals) (stack : list interval) : option totals :=
  match stack with
  | [] => Some t
  | i :: rest =>
      match fuel with
      | O => None
      | S n => let (t', stack') := fold_left (process tol) (split3 i) (t, rest) in quad_loop n tol t' stack'
      end
  end.

(** Options, 153-166: endpoint values supplied or filled in; results. *)
Record options := Options { ofa : option R; ofb : option R }.
Record result := Result { integral : R; uncertainty : R; out_of_tolerance : bool; final_fa : R; final_fb : R }.

(** integrate, 179-280. [options] of [None] fields behave like a null pointer for the integral. [None]: not finished. *)
Definition integrate (fuel : nat) (a0 b0 tol0 : R) (opt : options) : option (outcome result) :=
  if Rlt_dec tol0 epsilon then Some (Throw RuntimeError) else
  let reverse := if Rlt_dec b0 a0 then true else false in
  let (a, b) := if reverse then (b0, a0) else (a0, b0) in
  let fa := match ofa opt with Some v => v | None => f a end in
  let fb := match ofb opt with Some v => v | None => f b end in
  let i := evaluate a b fa fb in
  if negb (can_subdivide i) then Some (Throw RuntimeError) else
  let is1 := kronrod13 a b fa fb in
  let erri1 := Rabs (value i - is1) in
  let erri2 := Rabs (est2 i - is1) in
  let R := if Req_EM_T erri2 0 then 1 else erri1 / erri2 in
  let Rin := if Rlt_dec 0 R then (if Rlt_dec R 1 then true else false) else false in
  let tol := if Rin then tol0 / R else tol0 in
  let is := if Req_EM_T is1 0 then b - a else is1 in
  let tol := tol * Rabs is in
  let sign := fun v => if reverse then - v else v in
  if Rle_dec (badness i tol) 0 then Some (Ok (Result (sign is1) erri1 false fa fb))
  else match quad_loop fuel tol (Totals 0 0 0 false) [i] with
       | None => None
       | Some t => Some (Ok (Result (sign (total t)) (sqrt (unc t) * (if Rin then R else 1)) (oot t) fa fb))
       end.

(** ** fastInt, src/xsections.cpp 50-91 *)
(** checkAgreement, 54-59 *)
Definition agree (e1 e2 tol : R) : bool :=
  let a1 := Rmax (Rabs e1) (Rabs e2) in let a2 := Rmin (Rabs e1) (Rabs e2) in
  if Req_EM_T a2 0 then (if Req_EM_T a1 a2 then true else false)
  else if Rlt_dec (a1 / a2 - 1) tol then true else if Req_EM_T a1 a2 then true else false.
Definition fast_abscissa (i : nat) : R := nth i [-1; - (1 / sqrt 3); 0; 1 / sqrt 3; 1] 0.
Definition fast_int (fuel : nat) (a b tol : R) : option (outcome R) :=
  let h := (b - a) / 2 in
  let y := fun i => f (midpoint a b + fast_abscissa i * h) in
  if agree (y 0%nat) (y 4%nat) tol then Some (Ok (h * (y 0%nat + y 4%nat))) else
  let Legendre2 := y 1%nat + y 3%nat in
  let Lobatto2 := y 0%nat + y 4%nat in
  if agree Legendre2 Lobatto2 tol then Some (Ok (h * Legendre2)) else
  let Lobatto3 := (y 0%nat + 4 * y 2%nat + y 4%nat) / 3 in
  if agree Legendre2 Lobatto3 tol then Some (Ok (h * Lobatto3)) else
  match integrate fuel a b tol (Options (Some (y 0%nat)) (Some (y 4%nat))) with
  | None => None
  | Some r => Some (obind r (fun v => Ok (integral v)))
  end.
End Quad.
