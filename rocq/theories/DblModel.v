(** Look-ups with doubles as they are: binary64 numbers, signed zeros, infinities and NaN.

    A double is a [spec_float] of Coq's library, with the operations of IEEE 754 rounded to nearest
    even (53 bits, largest exponent 1024).  Comparisons with NaN are false.  log, log10, pow and exp are
    outside: parameters.  Coefficients of an interpolation cell (tools.cpp 456-471) and traces in SQuIDS
    are parameters as well. *)
From Coq Require Import List Arith ZArith Bool.
From Coq Require Import SpecFloat.
From Verif Require Import Err.
Import ListNotations.

Definition double := spec_float.
Definition nan : double := S754_nan.
Definition zero : double := S754_zero false.
Definition one : double := S754_finite false 4503599627370496 (-52).
Definition half : double := S754_finite false 4503599627370496 (-53).
Definition two : double := S754_finite false 4503599627370496 (-51).
Definition three : double := S754_finite false 6755399441055744 (-51).
(** 1.e-6, 0.0012, 7.594 and 0.494 as doubles. *)
Definition micro : double := S754_finite false 4722366482869645 (-72).
Definition air : double := S754_finite false 5534023222112865 (-62).
Definition scale_height : double := S754_finite false 8550083892562887 (-50).
Definition air_ye : double := S754_finite false 8899112863684100 (-54).

Definition dadd : double -> double -> double := SFadd 53 1024.
Definition dsub : double -> double -> double := SFsub 53 1024.
Definition dmul : double -> double -> double := SFmul 53 1024.
Definition ddiv : double -> double -> double := SFdiv 53 1024.
Definition droot : double -> double := SFsqrt 53 1024.
Definition dabs : double -> double := SFabs.
Definition dopp : double -> double := SFopp.
(** [a<b], [a<=b], [a==b]; [a>b] is [dlt b a]. *)
Definition dlt (a b : double) : bool := SFltb a b.
Definition dle (a b : double) : bool := SFleb a b.
Definition deq (a b : double) : bool := SFeqb a b.
(** SQR, body.cpp. *)
Definition sqr (x : double) : double := dmul x x.

(** The element at a place; the places asked for are inside (see [bisect]). *)
Definition at_place (xs : list double) (i : nat) : double := nth i xs nan.

(** std::upper_bound and std::lower_bound of libstdc++: the same loop, which goes right of the middle
    or stays left of it.  [fuel] bounds the number of steps; the length is enough. *)
Fixpoint bisect (right : nat -> bool) (fuel first len : nat) : nat :=
  match fuel, len with
  | 0, _ | _, 0 => first
  | S fuel', S _ =>
      let h := Nat.div2 len in
      if right (first + h) then bisect right fuel' (S (first + h)) (len - h - 1) else bisect right fuel' first h
  end.
Definition upper_bound (xs : list double) (x : double) : nat :=
  bisect (fun i => negb (dlt x (at_place xs i))) (length xs) 0 (length xs).
Definition lower_bound (xs : list double) (x : double) : nat :=
  bisect (fun i => dlt (at_place xs i) x) (length xs) 0 (length xs).

(** *** AkimaSpline, tools.h 145-186, tools.cpp 212-304 *)

(** AkimaSpline::segment and its operator(), tools.h 147-160. *)
Record piece := Piece { px : double; p0 : double; p1 : double; p2 : double; p3 : double }.
Definition piece_at (s : piece) (x : double) : double :=
  let x := dsub x (px s) in
  dadd (dmul (dadd (dmul (dadd (dmul (p3 s) x) (p2 s)) x) (p1 s)) x) (p0 s).
(** operator(), tools.h 175-181: front() of no segments, or a step before the first, is undefined. *)
Definition spline_at (segs : list piece) (x : double) : outcome double :=
  match segs with
  | [] => UB
  | s0 :: _ =>
      if dlt x (px s0) then Ok (piece_at s0 x)
      else match upper_bound (map px segs) x with
           | 0 => UB
           | S i => match nth_error segs i with Some s => Ok (piece_at s x) | None => UB end
           end
  end.

(** mHelper, tools.cpp 219-236: the slope of interval [i], with [i] from -2 to [n], here moved up by 2. *)
Definition slope_of (xs ys : list double) (i : nat) : double :=
  ddiv (dsub (at_place ys (S i)) (at_place ys i)) (dsub (at_place xs (S i)) (at_place xs i)).
Definition slope (xs ys : list double) (i2 : nat) : double :=
  let n := length xs in
  let m := slope_of xs ys in
  match i2 with
  | 0 => dsub (dmul three (m 0)) (dmul two (m 1))
  | 1 => dsub (dmul two (m 0)) (m 1)
  | S (S i) =>
      if Nat.eqb i (n - 1) then dsub (dmul two (m (n - 2))) (m (n - 3))
      else if Nat.eqb i n then dsub (dmul three (m (n - 2))) (dmul two (m (n - 3)))
      else m i
  end.
(** One turn of the loop, 241-299: [L], [NE] are L_ip1 and NE_ip1 as left by the turn before. *)
Definition mean (L NE a b other : double) : double :=
  if dlt zero NE then let alpha := ddiv L NE in dadd (dmul (dsub one alpha) a) (dmul alpha b) else other.
Definition turn (xs ys : list double) (i : nat) (L NE : double) : outcome (piece * double * double) :=
  let h := dsub (at_place xs (S i)) (at_place xs i) in
  if dlt h zero then Throw RuntimeError
  else if deq h zero then Throw RuntimeError
  else
    let m := slope xs ys in
    let m_im2 := m i in let m_im1 := m (1 + i) in let m_i := m (2 + i) in let m_ip1 := m (3 + i) in let m_ip2 := m (4 + i) in
    let '(L_i, NE_i) := if dle zero L then (L, NE)
                        else let l := dabs (dsub m_im2 m_im1) in (l, dadd l (dabs (dsub m_i m_ip1))) in
    let tR := mean L_i NE_i m_im1 m_i m_i in
    let L' := dabs (dsub m_im1 m_i) in
    let NE' := dadd L' (dabs (dsub m_ip1 m_ip2)) in
    let tL := mean L' NE' m_i m_ip1 m_i in
    Ok (Piece (at_place xs i) (at_place ys i) tR
          (ddiv (dsub (dsub (dmul three m_i) (dmul two tR)) tL) h)
          (ddiv (dsub (dadd tR tL) (dmul two m_i)) (dmul h h)), L', NE').
Fixpoint turns (xs ys : list double) (i left : nat) (L NE : double) : outcome (list piece) :=
  match left with
  | 0 => Ok []
  | S left' =>
      match turn xs ys i L NE with
      | Ok (s, L', NE') =>
          match turns xs ys (S i) left' L' NE' with Ok l => Ok (s :: l) | Throw e => Throw e | UB => UB end
      | Throw e => Throw e
      | UB => UB
      end
  end.
(** initialize, 212-304, and the constructor with its check of the lengths, tools.h 171-173. *)
Definition spline_of (xs ys : list double) : outcome (list piece) :=
  if negb (Nat.eqb (length xs) (length ys)) then Throw RuntimeError
  else if Nat.ltb (length xs) 3 then Throw RuntimeError
  else turns xs ys 0 (length xs - 1) (dopp one) (dopp one).

(** *** BiCubicInterpolator and TriCubicInterpolator, tools.cpp 393-477, 774-800 *)

(** The cell of one coordinate, 398-405 (776-787): the index, for [n] nodes; [n-1] and [i--] are of 64 bits. *)
Definition axis_cell (xs : list double) (x : double) : outcome nat :=
  match xs with
  | [] => UB
  | x0 :: _ =>
      match (if dlt x x0 then Some 0 else match upper_bound xs x with 0 => None | S i => Some i end) with
      | None => UB
      | Some i =>
          let i := if Nat.eqb i (length xs - 1) then (if Nat.eqb i 0 then None else Some (i - 1)) else Some i in
          match i with
          | None => UB                                   (* i wraps to 2^64-1, 404: read outside at 408 *)
          | Some i => if Nat.ltb (S i) (length xs) then Ok i else UB
          end
      end
  end.
(** 408-412. *)
Definition local (xs : list double) (i : nat) (x : double) : double :=
  ddiv (dsub x (at_place xs i)) (dsub (at_place xs (S i)) (at_place xs i)).
(** 473-476: [c i j a b] is entry [b] of array [ca] of cell [i], [j]. *)
Definition row (c : nat -> double) (u : double) : double :=
  dadd (dmul (dadd (dmul (dadd (dmul (c 3) u) (c 2)) u) (c 1)) u) (c 0).
Definition next_row (result t u : double) (c : nat -> double) : double :=
  dadd (dadd (dmul result t) (dmul (dadd (dmul (dadd (dmul (c 3) u) (c 2)) u) (c 1)) u)) (c 0).
Definition bicubic_at (c : nat -> nat -> nat -> nat -> double) (xs ys : list double) (no_data : bool) (x y : double) : outcome double :=
  if no_data then Ok zero
  else match axis_cell xs x, axis_cell ys y with
       | Ok i, Ok j =>
           let t := local xs i x in
           let u := local ys j y in
           let result := row (c i j 3) u in
           let result := next_row result t u (c i j 2) in
           let result := next_row result t u (c i j 1) in
           Ok (next_row result t u (c i j 0))
       | _, _ => UB
       end.
(** The cell of the tricubic interpolator, 774-787. *)
Definition tricubic_cell (xs ys zs : list double) (x y z : double) : outcome (nat * nat * nat) :=
  match axis_cell xs x, axis_cell ys y, axis_cell zs z with
  | Ok i, Ok j, Ok k => Ok (i, j, k)
  | _, _, _ => UB
  end.

(** *** nuSQUIDSAtm::EvalFlavor, nuSQuIDS.h 1332-1410 (and 1425-1503) *)

(** 1341-1342, 1350-1355: the check of the range and the lower node. *)
Definition atm_node (xs : list double) (x : double) : outcome nat :=
  match xs with
  | [] => UB
  | x0 :: _ =>
      if dlt x x0 || dlt (last xs nan) x then Throw RuntimeError
      else let k := lower_bound xs x in
           if Nat.eqb k (length xs) then Throw RuntimeError
           else Ok (k - 1)
  end.
(** LinInter, 1083-1087. *)
Definition lin_inter (x xM xP yM yP : double) : double :=
  let f2 := ddiv (dsub x xM) (dsub xP xM) in
  let f1 := dsub one f2 in
  dadd (dmul f1 yM) (dmul f2 yP).
(** The whole: [trace k f1 f2 e enu costh] is the trace at zenith node [k] with energy weights [f1], [f2] of nodes
    [e], [e+1] and the projector evolved for [enu] and [costh] (1377-1408). *)
Definition atm_eval (trace : nat -> double -> double -> nat -> double -> double -> double)
                    (cosths enus : list double) (costh enu : double) : outcome double :=
  obind (atm_node cosths costh) (fun k =>
  obind (atm_node enus enu) (fun e =>
    if Nat.ltb (S k) (length cosths) && Nat.ltb (S e) (length enus)
    then
      let f2 := ddiv (dsub enu (at_place enus e)) (dsub (at_place enus (S e)) (at_place enus e)) in
      let f1 := dsub one f2 in
      let phiM := trace k f1 f2 e enu costh in
      let phiP := trace (S k) f1 f2 e enu costh in
      Ok (lin_inter costh (at_place cosths k) (at_place cosths (S k)) phiM phiP)
    else UB)).

(** nuSQUIDS::EvalFlavor with an energy, nuSQuIDS.cpp 1472-1478 (and 1461, 1485, 1500): [ask] is SQuIDS. *)
Definition single_eval (ask : double -> double) (es : list double) (e : double) : outcome double :=
  match es with
  | [] => UB
  | e0 :: _ => if dlt e e0 || dlt (last es nan) e then Throw RuntimeError else Ok (ask e)
  end.

(** *** Media *)

(** VariableDensity::density and ye, body.cpp 260-277; [cm] is the unit. *)
Definition variable_at (cm : double) (xs : list double) (segs : list piece) (x : double) : outcome double :=
  match xs with
  | [] => UB
  | x0 :: _ => let x := ddiv x cm in if dlt x x0 || dlt (last xs nan) x then Ok zero else spline_at segs x
  end.
(** Sun::rdensity, rxh 498-519, [first] the value returned inside the first radius; density and ye, 521-530. *)
Definition sun_radial (first : double) (xs : list double) (segs : list piece) (x : double) : outcome double :=
  match xs with
  | [] => UB
  | x0 :: _ => if dlt x x0 then Ok first else if dlt (last xs nan) x then Ok zero else spline_at segs x
  end.
Definition sun_density (first : double) xs segs (radius x : double) : outcome double := sun_radial first xs segs (ddiv x radius).
Definition half_more (r : outcome double) : outcome double := obind r (fun xh => Ok (dmul half (dadd one xh))).
Definition sun_ye (first : double) xs segs (radius x : double) : outcome double := half_more (sun_radial first xs segs (ddiv x radius)).
(** SunASnu, 653-673. *)
Definition chord_radius (radius b x : double) : double :=
  ddiv (droot (dsub (dadd (sqr radius) (sqr x)) (dmul (dmul two x) (droot (dsub (sqr radius) (sqr b)))))) radius.
Definition chord_density (first : double) xs segs (radius b x : double) : outcome double := sun_radial first xs segs (chord_radius radius b x).
Definition chord_ye (first : double) xs segs (radius b x : double) : outcome double := half_more (sun_radial first xs segs (chord_radius radius b x)).
(** Earth::density and ye, 370-415. *)
Record shells := Shells { r_min : double; r_max : double; v_min : double; v_max : double; inter : list piece }.
Definition earth_at (km radius : double) (m : shells) (baseline x : double) : outcome double :=
  let xkm := ddiv x km in
  let r2 := dsub (dadd (sqr radius) (sqr xkm)) (dmul (ddiv baseline km) xkm) in
  let within (r : double) :=
    let q := ddiv r radius in
    if dlt q (r_min m) then Ok (v_min m) else if dlt (r_max m) q then Ok (v_max m) else spline_at (inter m) q in
  if dlt zero r2 then within (droot r2)
  else if dlt (dabs r2) micro then within zero
  else Throw RuntimeError.
(** EarthAtm::density and ye, 800-846: [r] of a place, and the answer at it; [above] is the answer in the air. *)
Definition atm_radius (km earth atm cosphi L x : double) : double :=
  let xkm := ddiv x km in
  let sinsq := dsub one (dmul cosphi cosphi) in
  let dL := dadd (droot (dsub (sqr atm) (dmul (dmul earth earth) sinsq))) (dmul earth cosphi) in
  let r2 := dsub (dadd (sqr atm) (sqr xkm)) (dmul (dadd (ddiv L km) dL) xkm) in
  if dlt zero r2 then droot r2 else zero.
Definition atm_within (above : double -> double) (earth atm : double) (m : shells) (r : double) : outcome double :=
  let q := ddiv r atm in
  if dlt q (r_min m) then Ok (v_min m)
  else if dlt (r_max m) q && dlt r earth then Ok (v_max m)
  else if dlt earth r then Ok (above r)
  else spline_at (inter m) q.
Definition atm_density (exp : double -> double) (km earth atm : double) (m : shells) (cosphi L x : double) : outcome double :=
  atm_within (fun r => dmul air (exp (ddiv (dopp (dsub r earth)) scale_height))) earth atm m (atm_radius km earth atm cosphi L x).
Definition atm_ye (km earth atm : double) (m : shells) (cosphi L x : double) : outcome double :=
  atm_within (fun _ => air_ye) earth atm m (atm_radius km earth atm cosphi L x).

(** *** Cross sections *)

(** NeutrinoDISCrossSectionsFromTables::TotalCrossSection, xsections.cpp 199-221, for a flavour with tables; [least] is
    numeric_limits<double>::min(), [ten] is 10*GeV.  The call below Emin asks for Emin, which is not below it. *)
Section Tables.
  Variables (log10 pow10 : double -> double) (ten gev emin emax least : double).
  Definition total_inside (segs : list piece) (e : double) : outcome double :=
    obind (spline_at segs (log10 e)) (fun v => Ok (pow10 v)).
  Definition total_at (segs : list piece) (e : double) : outcome double :=
    if dlt emax e then Throw RuntimeError
    else if dlt e ten && dlt ten emin then Ok least
    else if dlt e emin then
      (if dlt emax emin then Throw RuntimeError
       else obind (total_inside segs emin) (fun v => Ok (dmul v (ddiv e emin))))
    else total_inside segs e.
  (** SingleDifferentialCrossSection, 223-246. *)
  Definition single_at (table : double -> double -> outcome double) (e1 e2 : double) : outcome double :=
    if dlt emax e1 then Throw RuntimeError
    else if dle e1 emin then Ok least
    else
      let z := ddiv (dsub e2 emin) (dsub e1 emin) in
      obind (table (log10 e1) z) (fun val =>
      obind (if dle e2 emin then obind (table (log10 e1) zero) (fun alt => Ok (if dlt alt val then alt else val)) else Ok val) (fun val =>
      Ok (ddiv (pow10 val) (ddiv e1 gev)))).
End Tables.

(** static_cast<size_t> of a double: undefined unless the integer part fits. *)
Definition to_size (x : double) : outcome nat :=
  match x with
  | S754_zero _ => Ok 0
  | S754_finite s m e =>
      let z := Z.shiftl (Zpos m) e in
      if s then (if Z.eqb z 0 then Ok 0 else UB) else (if Z.ltb z (2 ^ 64) then Ok (Z.to_nat z) else UB)
  | _ => UB
  end.
(** NeutrinoDISCrossSectionsFromTables_V1::LinInter, 588-590. *)
Definition v1_inter (x xM xP yM yP : double) : double := dadd yM (ddiv (dmul (dsub yP yM) (dsub x xM)) (dsub xP xM)).
(** NeutrinoDISCrossSectionsFromTables_V1::TotalCrossSection, 605-633, for an existing flavour: the logarithms of the
    energies of the table [logs], its values [sigma], [div] its number of intervals. *)
Definition v1_total (log : double -> double) (ten gev emin emax least : double) (logs sigma : list double) (div : nat) (e : double) : outcome double :=
  let inside (e : double) :=
    let logE := log (ddiv e gev) in
    let l0 := at_place logs 0 in
    obind (to_size (ddiv (dsub logE l0) (dsub (at_place logs 1) l0))) (fun idx =>
    let idx := if Nat.eqb idx div then idx - 1 else idx in
    if Nat.ltb (S idx) (length logs) && Nat.ltb (S idx) (length sigma)
    then Ok (v1_inter logE (at_place logs idx) (at_place logs (S idx)) (at_place sigma idx) (at_place sigma (S idx)))
    else UB) in
  if dlt emax e then Throw RuntimeError
  else if dlt e ten && dlt ten emin then Ok least
  else if dlt e emin then
    (if dlt emax emin then Throw RuntimeError else obind (inside emin) (fun v => Ok (dmul v (ddiv e emin))))
  else inside e.
