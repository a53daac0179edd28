(** Model of AkimaSpline, src/tools.cpp 212-340 and include/nuSQuIDS/tools.h 145-186. Doubles are reals.
    The tables are pointers with a count: functions of the index, of which only indices below [n] are used. *)
From Coq Require Import List ZArith Reals.
From Verif Require Import Err.
Import ListNotations.
Local Open Scope R_scope.

(** h 147-160 *)
Record segment := Seg { sx : R; a0 : R; a1 : R; a2 : R; a3 : R }.
Definition seg_eval (s : segment) (x : R) : R := let x := x - sx s in (((a3 s * x) + a2 s) * x + a1 s) * x + a0 s.
Definition seg_deriv (s : segment) (x : R) : R := let x := x - sx s in ((3 * a3 s) * x + 2 * a2 s) * x + a1 s.

Record spline := Spline { segments : list segment; xLast : R; yLast : R }.

Section A.
Variables (x y : nat -> R) (n : nat).

(** The local helper [m], 219-236: secant slopes, with two extrapolated ones at either end. *)
Definition m_in (i : nat) : R := (y (S i) - y i) / (x (S i) - x i).
Definition m (i : Z) : R :=
  if Z.eqb i (-2) then 3 * m_in 0 - 2 * m_in 1
  else if Z.eqb i (-1) then 2 * m_in 0 - m_in 1
  else if Z.eqb i (Z.of_nat n - 1) then 2 * m_in (n - 2) - m_in (n - 3)
  else if Z.eqb i (Z.of_nat n) then 3 * m_in (n - 2) - 2 * m_in (n - 3)
  else m_in (Z.to_nat i).

(** Variables carried from one iteration to the next, 239-240. *)
Record carry := Carry { L_ip1 : R; NE_ip1 : R; m_im2 : R; m_im1 : R; m_i : R; m_ip1 : R }.

(** The slope from its two neighbours, 267-272 and 279-284; [other] is used when the weights vanish. *)
Definition slope (L NE ma mb other : R) : R :=
  if Rlt_dec 0 NE then let alpha := L / NE in (1 - alpha) * ma + alpha * mb else other.

(** One iteration, 241-301. *)
Definition akima_step (i : nat) (c : carry) : outcome (segment * carry) :=
  let h := x (S i) - x i in
  if Rlt_dec h 0 then Throw RuntimeError
  else if Req_EM_T h 0 then Throw RuntimeError
  else
    let iz := Z.of_nat i in
    let c := if Nat.eqb i 0 then Carry (L_ip1 c) (NE_ip1 c) (m (iz - 2)) (m (iz - 1)) (m iz) (m (iz + 1)) else c in
    let m_ip2 := m (iz + 2) in
    let (Li, NEi) := if Rle_dec 0 (L_ip1 c) then (L_ip1 c, NE_ip1 c)
                     else (Rabs (m_im2 c - m_im1 c), Rabs (m_im2 c - m_im1 c) + Rabs (m_i c - m_ip1 c)) in
    let tR := slope Li NEi (m_im1 c) (m_i c) (m_i c) in
    let L' := Rabs (m_im1 c - m_i c) in
    let NE' := L' + Rabs (m_ip1 c - m_ip2) in
    let tL := slope L' NE' (m_i c) (m_ip1 c) (m iz) in
    Ok (Seg (x i) (y i) tR ((3 * m_i c - 2 * tR - tL) / h) ((tR + tL - 2 * m_i c) / (h * h)),
        Carry L' NE' (m_im1 c) (m_i c) (m_ip1 c) m_ip2).

Fixpoint akima_loop (k i : nat) (c : carry) : outcome (list segment) :=
  match k with
  | O => Ok []
  | S k' => obind (akima_step i c) (fun '(s, c') => obind (akima_loop k' (S i) c') (fun r => Ok (s :: r)))
  end.

(** [initialize], 212-306. The m variables are not initialised before the first iteration sets them; any value will do. *)
Definition akima : outcome spline :=
  if Nat.ltb n 3 then Throw RuntimeError
  else obind (akima_loop (n - 1) 0 (Carry (-1) (-1) 0 0 0 0)) (fun s => Ok (Spline s (x (n - 1)) (y (n - 1)))).
End A.

(** std::upper_bound over the segments' abscissas: how many of them are <= t, for an ordered sequence. *)
Fixpoint upper (l : list segment) (t : R) : nat :=
  match l with [] => O | s :: l' => if Rlt_dec t (sx s) then O else S (upper l' t) end.

(** operator(), h 173-180. An empty spline is UB. *)
Definition spline_eval (s : spline) (t : R) : outcome R :=
  match segments s with
  | [] => UB
  | s0 :: _ => if Rlt_dec t (sx s0) then Ok (seg_eval s0 t)
               else match nth_error (segments s) (upper (segments s) t - 1) with
                    | Some sg => Ok (seg_eval sg t)
                    | None => UB
                    end
  end.

(** getAbscissas, getOrdinates, getAbscissaDerivatives, 308-340. *)
Definition abscissas (s : spline) : list R := map sx (segments s) ++ [xLast s].
Definition ordinates (s : spline) : list R := map a0 (segments s) ++ [yLast s].
Definition derivatives (s : spline) : outcome (list R) :=
  match rev (segments s) with
  | [] => UB
  | last :: _ => Ok (map a1 (segments s) ++ [seg_deriv last (xLast s)])
  end.
