(** Model of TriCubicInterpolator, src/tools.cpp 479-802. Doubles are reals; data[k][j][i] is a function of k (z), j (y), i (x). *)
From Coq Require Import List Arith Bool Reals.
From Verif Require Import Err AkimaModel BicubicModel.
Import ListNotations.
Local Open Scope R_scope.

(** tools.h 239-249 *)
Record tricubic := TriCubic {
  tnx : nat; tny : nat; tnz : nat; tx : nat -> R; ty : nat -> R; tz : nat -> R;
  tdata : nat -> nat -> nat -> R; tdx : nat -> nat -> nat -> R; tdy : nat -> nat -> nat -> R; tdz : nat -> nat -> nat -> R;
  tdxy : nat -> nat -> nat -> R; tdxz : nat -> nat -> nat -> R; tdyz : nat -> nat -> nat -> R; tdxyz : nat -> nat -> nat -> R }.

(** A double loop fitting one spline for each a<A, b<B to the [n] values f a b _, and keeping its slopes: e.g. 510-519. *)
Fixpoint sweep (x : nat -> R) (n : nat) (f : nat -> nat -> nat -> R) (a A B : nat) : outcome (list (list (list R))) :=
  match A with
  | O => Ok []
  | S A' => obind (all_slopes x n (f a) 0 B) (fun l => obind (sweep x n f (S a) A' B) (fun r => Ok (l :: r)))
  end.
Definition look3 (t : list (list (list R))) (a b c : nat) : R := look (nth a t []) b c.

(** The constructor, 479-586. [ez], [ey], [ex] are the extents of the data, [nx], [ny], [nz] the numbers of coordinates.
    The loop at 565-575 stores xslice[j] - what the loop before it left there, the slopes of its last line - not yslice[j]; xslice has
    [nx] entries, so that it is read past its end when there are more y than x coordinates. *)
Definition tricubic_make (data : nat -> nat -> nat -> R) (ez ey ex : nat) (xc : nat -> R) (nx : nat) (yc : nat -> R) (ny : nat) (zc : nat -> R) (nz : nat) : outcome tricubic :=
  if negb (Nat.eqb nx ex) then Throw RuntimeError else
  if negb (Nat.eqb ny ey) then Throw RuntimeError else
  if negb (Nat.eqb nz ez) then Throw RuntimeError else
  obind (sweep xc nx (fun k j i => data k j i) 0 nz ny) (fun fx => let dx := fun k j i => look3 fx k j i in
  obind (sweep yc ny (fun k i j => data k j i) 0 nz nx) (fun fy => let dy := fun k j i => look3 fy k i j in
  obind (sweep zc nz (fun j i k => data k j i) 0 ny nx) (fun fz => let dz := fun k j i => look3 fz j i k in
  obind (sweep xc nx (fun k j i => dy k j i) 0 nz ny) (fun fxy => let dxy := fun k j i => look3 fxy k j i in
  obind (sweep xc nx (fun k j i => dz k j i) 0 nz ny) (fun fxz => let dxz := fun k j i => look3 fxz k j i in
  obind (sweep yc ny (fun k i j => dz k j i) 0 nz nx) (fun _ =>
  if negb (Nat.eqb nz 0) && negb (Nat.eqb nx 0) && Nat.ltb nx ny then UB else
  let dyz := fun _ j _ => dxz (nz - 1)%nat (ny - 1)%nat j in
  obind (sweep xc nx (fun k j i => dyz k j i) 0 nz ny) (fun fxyz => let dxyz := fun k j i => look3 fxyz k j i in
  Ok (TriCubic nx ny nz xc yc zc data dx dy dz dxy dxz dyz dxyz)))))))).

(** collect_data, 605-668. *)
Definition collect (b : tricubic) (i j k : nat) (dx dy dz : R) (n : nat) : R := match n with
  | 0%nat => tdata b k j i
  | 1%nat => tdata b k j (S i)
  | 2%nat => tdata b k (S j) i
  | 3%nat => tdata b k (S j) (S i)
  | 4%nat => tdata b (S k) j i
  | 5%nat => tdata b (S k) j (S i)
  | 6%nat => tdata b (S k) (S j) i
  | 7%nat => tdata b (S k) (S j) (S i)
  | 8%nat => tdx b k j i * dx
  | 9%nat => tdx b k j (S i) * dx
  | 10%nat => tdx b k (S j) i * dx
  | 11%nat => tdx b k (S j) (S i) * dx
  | 12%nat => tdx b (S k) j i * dx
  | 13%nat => tdx b (S k) j (S i) * dx
  | 14%nat => tdx b (S k) (S j) i * dx
  | 15%nat => tdx b (S k) (S j) (S i) * dx
  | 16%nat => tdy b k j i * dy
  | 17%nat => tdy b k j (S i) * dy
  | 18%nat => tdy b k (S j) i * dy
  | 19%nat => tdy b k (S j) (S i) * dy
  | 20%nat => tdy b (S k) j i * dy
  | 21%nat => tdy b (S k) j (S i) * dy
  | 22%nat => tdy b (S k) (S j) i * dy
  | 23%nat => tdy b (S k) (S j) (S i) * dy
  | 24%nat => tdz b k j i * dz
  | 25%nat => tdz b k j (S i) * dz
  | 26%nat => tdz b k (S j) i * dz
  | 27%nat => tdz b k (S j) (S i) * dz
  | 28%nat => tdz b (S k) j i * dz
  | 29%nat => tdz b (S k) j (S i) * dz
  | 30%nat => tdz b (S k) (S j) i * dz
  | 31%nat => tdz b (S k) (S j) (S i) * dz
  | 32%nat => tdxy b k j i * dx * dy
  | 33%nat => tdxy b k j (S i) * dx * dy
  | 34%nat => tdxy b k (S j) i * dx * dy
  | 35%nat => tdxy b k (S j) (S i) * dx * dy
  | 36%nat => tdxy b (S k) j i * dx * dy
  | 37%nat => tdxy b (S k) j (S i) * dx * dy
  | 38%nat => tdxy b (S k) (S j) i * dx * dy
  | 39%nat => tdxy b (S k) (S j) (S i) * dx * dy
  | 40%nat => tdxz b k j i * dx * dz
  | 41%nat => tdxz b k j (S i) * dx * dz
  | 42%nat => tdxz b k (S j) i * dx * dz
  | 43%nat => tdxz b k (S j) (S i) * dx * dz
  | 44%nat => tdxz b (S k) j i * dx * dz
  | 45%nat => tdxz b (S k) j (S i) * dx * dz
  | 46%nat => tdxz b (S k) (S j) i * dx * dz
  | 47%nat => tdxz b (S k) (S j) (S i) * dx * dz
  | 48%nat => tdyz b k j i * dy * dz
  | 49%nat => tdyz b k j (S i) * dy * dz
  | 50%nat => tdyz b k (S j) i * dy * dz
  | 51%nat => tdyz b k (S j) (S i) * dy * dz
  | 52%nat => tdyz b (S k) j i * dy * dz
  | 53%nat => tdyz b (S k) j (S i) * dy * dz
  | 54%nat => tdyz b (S k) (S j) i * dy * dz
  | 55%nat => tdyz b (S k) (S j) (S i) * dy * dz
  | 56%nat => tdxyz b k j i * dx * dy * dz
  | 57%nat => tdxyz b k j (S i) * dx * dy * dz
  | 58%nat => tdxyz b k (S j) i * dx * dy * dz
  | 59%nat => tdxyz b k (S j) (S i) * dx * dy * dz
  | 60%nat => tdxyz b (S k) j i * dx * dy * dz
  | 61%nat => tdxyz b (S k) j (S i) * dx * dy * dz
  | 62%nat => tdxyz b (S k) (S j) i * dx * dy * dz
  | 63%nat => tdxyz b (S k) (S j) (S i) * dx * dy * dz
  | _ => 0
  end.
(** get_coeffs, 672-735. *)
Definition coeff (d : nat -> R) (n : nat) : R := match n with
  | 0%nat => d 0%nat
  | 1%nat => d 8%nat
  | 2%nat => 3 * (-d 0%nat + d 1%nat) - 2 * d 8%nat - d 9%nat
  | 3%nat => 2 * (d 0%nat - d 1%nat) + d 8%nat + d 9%nat
  | 4%nat => d 16%nat
  | 5%nat => d 32%nat
  | 6%nat => 3 * (-d 16%nat + d 17%nat) - 2 * d 32%nat - d 33%nat
  | 7%nat => 2 * (d 16%nat - d 17%nat) + d 32%nat + d 33%nat
  | 8%nat => 3 * (-d 0%nat + d 2%nat) - 2 * d 16%nat - d 18%nat
  | 9%nat => 3 * (-d 8%nat + d 10%nat) - 2 * d 32%nat - d 34%nat
  | 10%nat => 9 * (d 0%nat - d 1%nat - d 2%nat + d 3%nat) + 6 * (d 8%nat - d 10%nat + d 16%nat - d 17%nat) + 4 * d 32%nat + 3 * (d 9%nat - d 11%nat + d 18%nat - d 19%nat) + 2 * (d 33%nat + d 34%nat) + d 35%nat
  | 11%nat => 6 * (-d 0%nat + d 1%nat + d 2%nat - d 3%nat) + 4 * (-d 16%nat + d 17%nat) + 3 * (-d 8%nat - d 9%nat + d 10%nat + d 11%nat) + 2 * (-d 18%nat + d 19%nat - d 32%nat - d 33%nat) - d 34%nat - d 35%nat
  | 12%nat => 2 * (d 0%nat - d 2%nat) + d 16%nat + d 18%nat
  | 13%nat => 2 * (d 8%nat - d 10%nat) + d 32%nat + d 34%nat
  | 14%nat => 6 * (-d 0%nat + d 1%nat + d 2%nat - d 3%nat) + 4 * (-d 8%nat + d 10%nat) + 3 * (-d 16%nat + d 17%nat - d 18%nat + d 19%nat) + 2 * (-d 9%nat + d 11%nat - d 32%nat - d 34%nat) - d 33%nat - d 35%nat
  | 15%nat => 4 * (d 0%nat - d 1%nat - d 2%nat + d 3%nat) + 2 * (d 8%nat + d 9%nat - d 10%nat - d 11%nat + d 16%nat - d 17%nat + d 18%nat - d 19%nat) + d 32%nat + d 33%nat + d 34%nat + d 35%nat
  | 16%nat => d 24%nat
  | 17%nat => d 40%nat
  | 18%nat => 3 * (-d 24%nat + d 25%nat) - 2 * d 40%nat - d 41%nat
  | 19%nat => 2 * (d 24%nat - d 25%nat) + d 40%nat + d 41%nat
  | 20%nat => d 48%nat
  | 21%nat => d 56%nat
  | 22%nat => 3 * (-d 48%nat + d 49%nat) - 2 * d 56%nat - d 57%nat
  | 23%nat => 2 * (d 48%nat - d 49%nat) + d 56%nat + d 57%nat
  | 24%nat => 3 * (-d 24%nat + d 26%nat) - 2 * d 48%nat - d 50%nat
  | 25%nat => 3 * (-d 40%nat + d 42%nat) - 2 * d 56%nat - d 58%nat
  | 26%nat => 9 * (d 24%nat - d 25%nat - d 26%nat + d 27%nat) + 6 * (d 40%nat - d 42%nat + d 48%nat - d 49%nat) + 4 * d 56%nat + 3 * (d 41%nat - d 43%nat + d 50%nat - d 51%nat) + 2 * (d 57%nat + d 58%nat) + d 59%nat
  | 27%nat => 6 * (-d 24%nat + d 25%nat + d 26%nat - d 27%nat) + 4 * (-d 48%nat + d 49%nat) + 3 * (-d 40%nat - d 41%nat + d 42%nat + d 43%nat) + 2 * (-d 50%nat + d 51%nat - d 56%nat - d 57%nat) - d 58%nat - d 59%nat
  | 28%nat => 2 * (d 24%nat - d 26%nat) + d 48%nat + d 50%nat
  | 29%nat => 2 * (d 40%nat - d 42%nat) + d 56%nat + d 58%nat
  | 30%nat => 6 * (-d 24%nat + d 25%nat + d 26%nat - d 27%nat) + 4 * (-d 40%nat + d 42%nat) + 3 * (-d 48%nat + d 49%nat - d 50%nat + d 51%nat) + 2 * (-d 41%nat + d 43%nat - d 56%nat - d 58%nat) - d 57%nat - d 59%nat
  | 31%nat => 4 * (d 24%nat - d 25%nat - d 26%nat + d 27%nat) + 2 * (d 40%nat + d 41%nat - d 42%nat - d 43%nat + d 48%nat - d 49%nat + d 50%nat - d 51%nat) + d 56%nat + d 57%nat + d 58%nat + d 59%nat
  | 32%nat => 3 * (-d 0%nat + d 4%nat) - 2 * d 24%nat - d 28%nat
  | 33%nat => 3 * (-d 8%nat + d 12%nat) - 2 * d 40%nat - d 44%nat
  | 34%nat => 9 * (d 0%nat - d 1%nat - d 4%nat + d 5%nat) + 6 * (d 8%nat - d 12%nat + d 24%nat - d 25%nat) + 4 * d 40%nat + 3 * (d 9%nat - d 13%nat + d 28%nat - d 29%nat) + 2 * (d 41%nat + d 44%nat) + d 45%nat
  | 35%nat => 6 * (-d 0%nat + d 1%nat + d 4%nat - d 5%nat) + 4 * (-d 24%nat + d 25%nat) + 3 * (-d 8%nat - d 9%nat + d 12%nat + d 13%nat) + 2 * (-d 28%nat + d 29%nat - d 40%nat - d 41%nat) - d 44%nat - d 45%nat
  | 36%nat => 3 * (-d 16%nat + d 20%nat) - 2 * d 48%nat - d 52%nat
  | 37%nat => 3 * (-d 32%nat + d 36%nat) - 2 * d 56%nat - d 60%nat
  | 38%nat => 9 * (d 16%nat - d 17%nat - d 20%nat + d 21%nat) + 6 * (d 32%nat - d 36%nat + d 48%nat - d 49%nat) + 4 * d 56%nat + 3 * (d 33%nat - d 37%nat + d 52%nat - d 53%nat) + 2 * (d 57%nat + d 60%nat) + d 61%nat
  | 39%nat => 6 * (-d 16%nat + d 17%nat + d 20%nat - d 21%nat) + 4 * (-d 48%nat + d 49%nat) + 3 * (-d 32%nat - d 33%nat + d 36%nat + d 37%nat) + 2 * (-d 52%nat + d 53%nat - d 56%nat - d 57%nat) - d 60%nat - d 61%nat
  | 40%nat => 9 * (d 0%nat - d 2%nat - d 4%nat + d 6%nat) + 6 * (d 16%nat - d 20%nat + d 24%nat - d 26%nat) + 4 * d 48%nat + 3 * (d 18%nat - d 22%nat + d 28%nat - d 30%nat) + 2 * (d 50%nat + d 52%nat) + d 54%nat
  | 41%nat => 9 * (d 8%nat - d 10%nat - d 12%nat + d 14%nat) + 6 * (d 32%nat - d 36%nat + d 40%nat - d 42%nat) + 4 * d 56%nat + 3 * (d 34%nat - d 38%nat + d 44%nat - d 46%nat) + 2 * (d 58%nat + d 60%nat) + d 62%nat
  | 42%nat => 27 * (-d 0%nat + d 1%nat + d 2%nat - d 3%nat + d 4%nat - d 5%nat - d 6%nat + d 7%nat) + 18 * (-d 8%nat + d 10%nat + d 12%nat - d 14%nat - d 16%nat + d 17%nat + d 20%nat - d 21%nat - d 24%nat + d 25%nat + d 26%nat - d 27%nat) + 12 * (-d 32%nat + d 36%nat - d 40%nat + d 42%nat - d 48%nat + d 49%nat) + 9 * (-d 9%nat + d 11%nat + d 13%nat - d 15%nat - d 18%nat + d 19%nat + d 22%nat - d 23%nat - d 28%nat + d 29%nat + d 30%nat - d 31%nat) - 8 * d 56%nat + 6 * (-d 33%nat - d 34%nat + d 37%nat + d 38%nat - d 41%nat + d 43%nat - d 44%nat + d 46%nat - d 50%nat + d 51%nat - d 52%nat + d 53%nat) + 4 * (-d 57%nat - d 58%nat - d 60%nat) + 3 * (-d 35%nat + d 39%nat - d 45%nat + d 47%nat - d 54%nat + d 55%nat) + 2 * (-d 59%nat - d 61%nat - d 62%nat) - d 63%nat
  | 43%nat => 18 * (d 0%nat - d 1%nat - d 2%nat + d 3%nat - d 4%nat + d 5%nat + d 6%nat - d 7%nat) + 12 * (d 16%nat - d 17%nat - d 20%nat + d 21%nat + d 24%nat - d 25%nat - d 26%nat + d 27%nat) + 9 * (d 8%nat + d 9%nat - d 10%nat - d 11%nat - d 12%nat - d 13%nat + d 14%nat + d 15%nat) + 8 * (d 48%nat - d 49%nat) + 6 * (d 18%nat - d 19%nat - d 22%nat + d 23%nat + d 28%nat - d 29%nat - d 30%nat + d 31%nat + d 32%nat + d 33%nat - d 36%nat - d 37%nat + d 40%nat + d 41%nat - d 42%nat - d 43%nat) + 4 * (d 50%nat - d 51%nat + d 52%nat - d 53%nat + d 56%nat + d 57%nat) + 3 * (d 34%nat + d 35%nat - d 38%nat - d 39%nat + d 44%nat + d 45%nat - d 46%nat - d 47%nat) + 2 * (d 54%nat - d 55%nat + d 58%nat + d 59%nat + d 60%nat + d 61%nat) + d 62%nat + d 63%nat
  | 44%nat => 6 * (-d 0%nat + d 2%nat + d 4%nat - d 6%nat) + 4 * (-d 24%nat + d 26%nat) + 3 * (-d 16%nat - d 18%nat + d 20%nat + d 22%nat) + 2 * (-d 28%nat + d 30%nat - d 48%nat - d 50%nat) - d 52%nat - d 54%nat
  | 45%nat => 6 * (-d 8%nat + d 10%nat + d 12%nat - d 14%nat) + 4 * (-d 40%nat + d 42%nat) + 3 * (-d 32%nat - d 34%nat + d 36%nat + d 38%nat) + 2 * (-d 44%nat + d 46%nat - d 56%nat - d 58%nat) - d 60%nat - d 62%nat
  | 46%nat => 18 * (d 0%nat - d 1%nat - d 2%nat + d 3%nat - d 4%nat + d 5%nat + d 6%nat - d 7%nat) + 12 * (d 8%nat - d 10%nat - d 12%nat + d 14%nat + d 24%nat - d 25%nat - d 26%nat + d 27%nat) + 9 * (d 16%nat - d 17%nat + d 18%nat - d 19%nat - d 20%nat + d 21%nat - d 22%nat + d 23%nat) + 8 * (d 40%nat - d 42%nat) + 6 * (d 9%nat - d 11%nat - d 13%nat + d 15%nat + d 28%nat - d 29%nat - d 30%nat + d 31%nat + d 32%nat + d 34%nat - d 36%nat - d 38%nat + d 48%nat - d 49%nat + d 50%nat - d 51%nat) + 4 * (d 41%nat - d 43%nat + d 44%nat - d 46%nat + d 56%nat + d 58%nat) + 3 * (d 33%nat + d 35%nat - d 37%nat - d 39%nat + d 52%nat - d 53%nat + d 54%nat - d 55%nat) + 2 * (d 45%nat - d 47%nat + d 57%nat + d 59%nat + d 60%nat + d 62%nat) + d 61%nat + d 63%nat
  | 47%nat => 12 * (-d 0%nat + d 1%nat + d 2%nat - d 3%nat + d 4%nat - d 5%nat - d 6%nat + d 7%nat) + 8 * (-d 24%nat + d 25%nat + d 26%nat - d 27%nat) + 6 * (-d 8%nat - d 9%nat + d 10%nat + d 11%nat + d 12%nat + d 13%nat - d 14%nat - d 15%nat - d 16%nat + d 17%nat - d 18%nat + d 19%nat + d 20%nat - d 21%nat + d 22%nat - d 23%nat) + 4 * (-d 28%nat + d 29%nat + d 30%nat - d 31%nat - d 40%nat - d 41%nat + d 42%nat + d 43%nat - d 48%nat + d 49%nat - d 50%nat + d 51%nat) + 3 * (-d 32%nat - d 33%nat - d 34%nat - d 35%nat + d 36%nat + d 37%nat + d 38%nat + d 39%nat) + 2 * (-d 44%nat - d 45%nat + d 46%nat + d 47%nat - d 52%nat + d 53%nat - d 54%nat + d 55%nat - d 56%nat - d 57%nat - d 58%nat - d 59%nat) - d 60%nat - d 61%nat - d 62%nat - d 63%nat
  | 48%nat => 2 * (d 0%nat - d 4%nat) + d 24%nat + d 28%nat
  | 49%nat => 2 * (d 8%nat - d 12%nat) + d 40%nat + d 44%nat
  | 50%nat => 6 * (-d 0%nat + d 1%nat + d 4%nat - d 5%nat) + 4 * (-d 8%nat + d 12%nat) + 3 * (-d 24%nat + d 25%nat - d 28%nat + d 29%nat) + 2 * (-d 9%nat + d 13%nat - d 40%nat - d 44%nat) - d 41%nat - d 45%nat
  | 51%nat => 4 * (d 0%nat - d 1%nat - d 4%nat + d 5%nat) + 2 * (d 8%nat + d 9%nat - d 12%nat - d 13%nat + d 24%nat - d 25%nat + d 28%nat - d 29%nat) + d 40%nat + d 41%nat + d 44%nat + d 45%nat
  | 52%nat => 2 * (d 16%nat - d 20%nat) + d 48%nat + d 52%nat
  | 53%nat => 2 * (d 32%nat - d 36%nat) + d 56%nat + d 60%nat
  | 54%nat => 6 * (-d 16%nat + d 17%nat + d 20%nat - d 21%nat) + 4 * (-d 32%nat + d 36%nat) + 3 * (-d 48%nat + d 49%nat - d 52%nat + d 53%nat) + 2 * (-d 33%nat + d 37%nat - d 56%nat - d 60%nat) - d 57%nat - d 61%nat
  | 55%nat => 4 * (d 16%nat - d 17%nat - d 20%nat + d 21%nat) + 2 * (d 32%nat + d 33%nat - d 36%nat - d 37%nat + d 48%nat - d 49%nat + d 52%nat - d 53%nat) + d 56%nat + d 57%nat + d 60%nat + d 61%nat
  | 56%nat => 6 * (-d 0%nat + d 2%nat + d 4%nat - d 6%nat) + 4 * (-d 16%nat + d 20%nat) + 3 * (-d 24%nat + d 26%nat - d 28%nat + d 30%nat) + 2 * (-d 18%nat + d 22%nat - d 48%nat - d 52%nat) - d 50%nat - d 54%nat
  | 57%nat => 6 * (-d 8%nat + d 10%nat + d 12%nat - d 14%nat) + 4 * (-d 32%nat + d 36%nat) + 3 * (-d 40%nat + d 42%nat - d 44%nat + d 46%nat) + 2 * (-d 34%nat + d 38%nat - d 56%nat - d 60%nat) - d 58%nat - d 62%nat
  | 58%nat => 18 * (d 0%nat - d 1%nat - d 2%nat + d 3%nat - d 4%nat + d 5%nat + d 6%nat - d 7%nat) + 12 * (d 8%nat - d 10%nat - d 12%nat + d 14%nat + d 16%nat - d 17%nat - d 20%nat + d 21%nat) + 9 * (d 24%nat - d 25%nat - d 26%nat + d 27%nat + d 28%nat - d 29%nat - d 30%nat + d 31%nat) + 8 * (d 32%nat - d 36%nat) + 6 * (d 9%nat - d 11%nat - d 13%nat + d 15%nat + d 18%nat - d 19%nat - d 22%nat + d 23%nat + d 40%nat - d 42%nat + d 44%nat - d 46%nat + d 48%nat - d 49%nat + d 52%nat - d 53%nat) + 4 * (d 33%nat + d 34%nat - d 37%nat - d 38%nat + d 56%nat + d 60%nat) + 3 * (d 41%nat - d 43%nat + d 45%nat - d 47%nat + d 50%nat - d 51%nat + d 54%nat - d 55%nat) + 2 * (d 35%nat - d 39%nat + d 57%nat + d 58%nat + d 61%nat + d 62%nat) + d 59%nat + d 63%nat
  | 59%nat => 12 * (-d 0%nat + d 1%nat + d 2%nat - d 3%nat + d 4%nat - d 5%nat - d 6%nat + d 7%nat) + 8 * (-d 16%nat + d 17%nat + d 20%nat - d 21%nat) + 6 * (-d 8%nat - d 9%nat + d 10%nat + d 11%nat + d 12%nat + d 13%nat - d 14%nat - d 15%nat - d 24%nat + d 25%nat + d 26%nat - d 27%nat - d 28%nat + d 29%nat + d 30%nat - d 31%nat) + 4 * (-d 18%nat + d 19%nat + d 22%nat - d 23%nat - d 32%nat - d 33%nat + d 36%nat + d 37%nat - d 48%nat + d 49%nat - d 52%nat + d 53%nat) + 3 * (-d 40%nat - d 41%nat + d 42%nat + d 43%nat - d 44%nat - d 45%nat + d 46%nat + d 47%nat) + 2 * (-d 34%nat - d 35%nat + d 38%nat + d 39%nat - d 50%nat + d 51%nat - d 54%nat + d 55%nat - d 56%nat - d 57%nat - d 60%nat - d 61%nat) - d 58%nat - d 59%nat - d 62%nat - d 63%nat
  | 60%nat => 4 * (d 0%nat - d 2%nat - d 4%nat + d 6%nat) + 2 * (d 16%nat + d 18%nat - d 20%nat - d 22%nat + d 24%nat - d 26%nat + d 28%nat - d 30%nat) + d 48%nat + d 50%nat + d 52%nat + d 54%nat
  | 61%nat => 4 * (d 8%nat - d 10%nat - d 12%nat + d 14%nat) + 2 * (d 32%nat + d 34%nat - d 36%nat - d 38%nat + d 40%nat - d 42%nat + d 44%nat - d 46%nat) + d 56%nat + d 58%nat + d 60%nat + d 62%nat
  | 62%nat => 12 * (-d 0%nat + d 1%nat + d 2%nat - d 3%nat + d 4%nat - d 5%nat - d 6%nat + d 7%nat) + 8 * (-d 8%nat + d 10%nat + d 12%nat - d 14%nat) + 6 * (-d 16%nat + d 17%nat - d 18%nat + d 19%nat + d 20%nat - d 21%nat + d 22%nat - d 23%nat - d 24%nat + d 25%nat + d 26%nat - d 27%nat - d 28%nat + d 29%nat + d 30%nat - d 31%nat) + 4 * (-d 9%nat + d 11%nat + d 13%nat - d 15%nat - d 32%nat - d 34%nat + d 36%nat + d 38%nat - d 40%nat + d 42%nat - d 44%nat + d 46%nat) + 3 * (-d 48%nat + d 49%nat - d 50%nat + d 51%nat - d 52%nat + d 53%nat - d 54%nat + d 55%nat) + 2 * (-d 33%nat - d 35%nat + d 37%nat + d 39%nat - d 41%nat + d 43%nat - d 45%nat + d 47%nat - d 56%nat - d 58%nat - d 60%nat - d 62%nat) - d 57%nat - d 59%nat - d 61%nat - d 63%nat
  | 63%nat => 8 * (d 0%nat - d 1%nat - d 2%nat + d 3%nat - d 4%nat + d 5%nat + d 6%nat - d 7%nat) + 4 * (d 8%nat + d 9%nat - d 10%nat - d 11%nat - d 12%nat - d 13%nat + d 14%nat + d 15%nat + d 16%nat - d 17%nat + d 18%nat - d 19%nat - d 20%nat + d 21%nat - d 22%nat + d 23%nat + d 24%nat - d 25%nat - d 26%nat + d 27%nat + d 28%nat - d 29%nat - d 30%nat + d 31%nat) + 2 * (d 32%nat + d 33%nat + d 34%nat + d 35%nat - d 36%nat - d 37%nat - d 38%nat - d 39%nat + d 40%nat + d 41%nat - d 42%nat - d 43%nat + d 44%nat + d 45%nat - d 46%nat - d 47%nat + d 48%nat - d 49%nat + d 50%nat - d 51%nat + d 52%nat - d 53%nat + d 54%nat - d 55%nat) + d 56%nat + d 57%nat + d 58%nat + d 59%nat + d 60%nat + d 61%nat + d 62%nat + d 63%nat
  | _ => 0
  end.
(** evaluate_polynomial, the 16 polynomials in x, 747-762. *)
Definition poly_p (c : nat -> R) (t : R) (n : nat) : R := match n with
  | 0%nat => ((c 3%nat * t + c 2%nat) * t + c 1%nat) * t + c 0%nat
  | 1%nat => ((c 7%nat * t + c 6%nat) * t + c 5%nat) * t + c 4%nat
  | 2%nat => ((c 11%nat * t + c 10%nat) * t + c 9%nat) * t + c 8%nat
  | 3%nat => ((c 15%nat * t + c 14%nat) * t + c 13%nat) * t + c 12%nat
  | 4%nat => ((c 19%nat * t + c 18%nat) * t + c 17%nat) * t + c 16%nat
  | 5%nat => ((c 23%nat * t + c 22%nat) * t + c 21%nat) * t + c 20%nat
  | 6%nat => ((c 27%nat * t + c 26%nat) * t + c 25%nat) * t + c 24%nat
  | 7%nat => ((c 31%nat * t + c 30%nat) * t + c 29%nat) * t + c 28%nat
  | 8%nat => ((c 35%nat * t + c 34%nat) * t + c 33%nat) * t + c 32%nat
  | 9%nat => ((c 39%nat * t + c 38%nat) * t + c 37%nat) * t + c 36%nat
  | 10%nat => ((c 43%nat * t + c 42%nat) * t + c 41%nat) * t + c 40%nat
  | 11%nat => ((c 47%nat * t + c 46%nat) * t + c 45%nat) * t + c 44%nat
  | 12%nat => ((c 51%nat * t + c 50%nat) * t + c 49%nat) * t + c 48%nat
  | 13%nat => ((c 55%nat * t + c 54%nat) * t + c 53%nat) * t + c 52%nat
  | 14%nat => ((c 59%nat * t + c 58%nat) * t + c 57%nat) * t + c 56%nat
  | 15%nat => ((c 63%nat * t + c 62%nat) * t + c 61%nat) * t + c 60%nat
  | _ => 0
  end.
(** evaluate_polynomial, the 4 polynomials in y, 765-768. *)
Definition poly_q (p : nat -> R) (u : R) (n : nat) : R := match n with
  | 0%nat => ((p 3%nat * u + p 2%nat) * u + p 1%nat) * u + p 0%nat
  | 1%nat => ((p 7%nat * u + p 6%nat) * u + p 5%nat) * u + p 4%nat
  | 2%nat => ((p 11%nat * u + p 10%nat) * u + p 9%nat) * u + p 8%nat
  | 3%nat => ((p 15%nat * u + p 14%nat) * u + p 13%nat) * u + p 12%nat
  | _ => 0
  end.
(** evaluate_polynomial, the polynomial in z, 770-771. *)
Definition evaluate_polynomial (c : nat -> R) (t u v : R) : R :=
  let q := poly_q (poly_p c t) u in ((q 3%nat * v + q 2%nat) * v + q 1%nat) * v + q 0%nat.

(** The value in cell (i,j,k), 788-801. *)
Definition cell_eval3 (b : tricubic) (i j k : nat) (x y z : R) : R :=
  let dx := tx b (S i) - tx b i in
  let dy := ty b (S j) - ty b j in
  let dz := tz b (S k) - tz b k in
  evaluate_polynomial (coeff (collect b i j k dx dy dz)) ((x - tx b i) / dx) ((y - ty b j) / dy) ((z - tz b k) / dz).

(** operator(), 774-802. Reading coordinate 0 of an empty array is UB. *)
Definition tricubic_eval (b : tricubic) (x y z : R) : outcome R :=
  if Nat.eqb (tnx b) 0 || Nat.eqb (tny b) 0 || Nat.eqb (tnz b) 0 then UB
  else Ok (cell_eval3 b (cell_index (tx b) (tnx b) x) (cell_index (ty b) (tny b) y) (cell_index (tz b) (tnz b) z) x y z).
