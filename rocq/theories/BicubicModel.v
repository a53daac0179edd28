(** Model of BiCubicInterpolator, src/tools.cpp 342-477. Doubles are reals; data[j][i] is a function of the row j (y) and the column i (x). *)
From Coq Require Import List Arith Bool Reals.
From Verif Require Import Err AkimaModel.
Import ListNotations.
Local Open Scope R_scope.

(** spline.initialize followed by getAbscissaDerivatives, 369-370, 378-379, 387-388. *)
Definition slopes (x y : nat -> R) (n : nat) : outcome (list R) := obind (akima x y n) derivatives.
(** One spline for each of [k] rows (or columns) starting at [i]. *)
Fixpoint all_slopes (x : nat -> R) (n : nat) (f : nat -> nat -> R) (i k : nat) : outcome (list (list R)) :=
  match k with
  | O => Ok []
  | S k' => obind (slopes x (f i) n) (fun l => obind (all_slopes x n f (S i) k') (fun r => Ok (l :: r)))
  end.
Definition look (t : list (list R)) (a b : nat) : R := nth b (nth a t []) 0.

Record bicubic := BiCubic {
  bdata : nat -> nat -> R; bnx : nat; bny : nat; bx : nat -> R; by_ : nat -> R;
  bdx : nat -> nat -> R; bdy : nat -> nat -> R; bdxy : nat -> nat -> R }.

(** The constructor, 342-393. [rows], [cols] are data.extent(0), data.extent(1); [nx], [ny] the numbers of coordinates. *)
Definition bicubic_make (data : nat -> nat -> R) (rows cols : nat) (xc : nat -> R) (nx : nat) (yc : nat -> R) (ny : nat) : outcome bicubic :=
  if negb (Nat.eqb nx cols) then Throw RuntimeError else
  if negb (Nat.eqb ny rows) then Throw RuntimeError else
  obind (all_slopes yc rows (fun i j => data j i) 0 cols) (fun dy =>
  let dzdy := fun j i => look dy i j in
  obind (all_slopes xc cols (fun j i => data j i) 0 rows) (fun dx =>
  obind (all_slopes xc cols (fun j i => dzdy j i) 0 rows) (fun dxy =>
  Ok (BiCubic data nx ny xc yc (look dx) dzdy (look dxy))))).

(** std::upper_bound over an ordered coordinate array starting at index i, with k entries left. *)
Fixpoint upper_pt (xc : nat -> R) (i k : nat) (t : R) : nat :=
  match k with O => O | S k' => if Rlt_dec t (xc i) then O else S (upper_pt xc (S i) k' t) end.

(** Which cell, 400-407. *)
Definition cell_index (xc : nat -> R) (n : nat) (t : R) : nat :=
  let i := if Rlt_dec t (xc O) then O else (upper_pt xc 0 n t - 1)%nat in
  if Nat.eqb i (n - 1) then (i - 1)%nat else i.

(** The polynomial of a cell from the four corners' values and derivatives in local coordinates, 418-476.
    Corners are numbered 0..3 counterclockwise from (i,j). *)
Definition cell_poly (z0 z1 z2 z3 p0 p1 p2 p3 q0 q1 q2 q3 r0 r1 r2 r3 : R) (t u : R) : R :=
  let c00 := z0 in
  let c01 := q0 in
  let c02 := -3 * z0 + 3 * z3 - 2 * q0 - q3 in
  let c03 := 2 * z0 - 2 * z3 + q0 + q3 in
  let c10 := p0 in
  let c11 := r0 in
  let c12 := -3 * p0 + 3 * p3 - 2 * r0 - r3 in
  let c13 := 2 * p0 - 2 * p3 + r0 + r3 in
  let c20 := -3 * z0 + 3 * z1 - 2 * p0 - p1 in
  let c21 := -3 * q0 + 3 * q1 - 2 * r0 - r1 in
  let c22 := 9 * z0 - 9 * z1 + 9 * z2 - 9 * z3 + 6 * p0 + 3 * p1 - 3 * p2 - 6 * p3 + 6 * q0 - 6 * q1 - 3 * q2 + 3 * q3 + 4 * r0 + 2 * r1 + r2 + 2 * r3 in
  let c23 := -6 * z0 + 6 * z1 - 6 * z2 + 6 * z3 - 4 * p0 - 2 * p1 + 2 * p2 + 4 * p3 - 3 * q0 + 3 * q1 + 3 * q2 - 3 * q3 - 2 * r0 - r1 - r2 - 2 * r3 in
  let c30 := 2 * z0 - 2 * z1 + p0 + p1 in
  let c31 := 2 * q0 - 2 * q1 + r0 + r1 in
  let c32 := -6 * z0 + 6 * z1 - 6 * z2 + 6 * z3 - 3 * p0 - 3 * p1 + 3 * p2 + 3 * p3 - 4 * q0 + 4 * q1 + 2 * q2 - 2 * q3 - 2 * r0 - 2 * r1 - r2 - r3 in
  let c33 := 4 * z0 - 4 * z1 + 4 * z2 - 4 * z3 + 2 * p0 + 2 * p1 - 2 * p2 - 2 * p3 + 2 * q0 - 2 * q1 - 2 * q2 + 2 * q3 + r0 + r1 + r2 + r3 in
  let result := ((c33 * u + c32) * u + c31) * u + c30 in
  let result := result * t + ((c23 * u + c22) * u + c21) * u + c20 in
  let result := result * t + ((c13 * u + c12) * u + c11) * u + c10 in
  result * t + ((c03 * u + c02) * u + c01) * u + c00.

(** The value in cell (i,j), 409-476. *)
Definition cell_eval (b : bicubic) (i j : nat) (x y : R) : R :=
  let dx := bx b (S i) - bx b i in
  let dy := by_ b (S j) - by_ b j in
  let t := (x - bx b i) / dx in
  let u := (y - by_ b j) / dy in
  let i' := S i in let j' := S j in
  cell_poly (bdata b j i) (bdata b j i') (bdata b j' i') (bdata b j' i)
            (bdx b j i * dx) (bdx b j i' * dx) (bdx b j' i' * dx) (bdx b j' i * dx)
            (bdy b j i * dy) (bdy b j i' * dy) (bdy b j' i' * dy) (bdy b j' i * dy)
            (bdxy b j i * dx * dy) (bdxy b j i' * dx * dy) (bdxy b j' i' * dx * dy) (bdxy b j' i * dx * dy) t u.

(** operator(), 395-477. An empty table gives 0. *)
Definition bicubic_eval (b : bicubic) (x y : R) : R :=
  if orb (Nat.eqb (bnx b) 0) (Nat.eqb (bny b) 0) then 0
  else cell_eval b (cell_index (bx b) (bnx b) x) (cell_index (by_ b) (bny b) y) x y.
