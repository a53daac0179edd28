(** The solar contribution: resources/user_contributions/SolarTransitions/SolarModel.{h,cpp} and SolarProbabilities.{h,cpp}.
    Doubles are reals. GSL errors end the program ([Throw OtherExn]; GSL's default handler). The files are given by their
    rows; reading them is TableModel's subject. *)
From Coq Require Import Reals List Arith Bool.
From Verif Require Import Err CMatrix FlavorModel.
Import ListNotations.
Local Open Scope R_scope.

(** SolarModel.h:20 *)
Inductive flux := Fpp | Fpep | Fhep | Fbe7 | Fb8 | Fn13 | Fo15 | Ff17 | FElectron | FDM.
Definition flux_eqb (a b : flux) : bool :=
  match a, b with
  | Fpp, Fpp | Fpep, Fpep | Fhep, Fhep | Fbe7, Fbe7 | Fb8, Fb8 | Fn13, Fn13 | Fo15, Fo15 | Ff17, Ff17 | FElectron, FElectron | FDM, FDM => true
  | _, _ => false
  end.
Definition index (f : flux) : nat :=
  match f with Fpp => 0 | Fpep => 1 | Fhep => 2 | Fbe7 => 3 | Fb8 => 4 | Fn13 => 5 | Fo15 => 6 | Ff17 => 7 | FElectron => 8 | FDM => 9 end%nat.
(** SolarModel.h:22 and operator[] of the map, which adds an entry [false] for a key that is not there (b8) *)
Definition isline_map : list (flux * bool) := [(Fpp, false); (Fpep, true); (Fhep, false); (Fbe7, true); (Fn13, false); (Fo15, false); (Ff17, false)].
Definition is_line (f : flux) : bool :=
  match find (fun e => flux_eqb (fst e) f) isline_map with Some e => snd e | None => false end.
(** SolarModel.h:25-28 *)
Definition Emin : R := 3464.
Definition Emax : R := 18784000.
Definition Rsun : R := 696626514111 / 10.
Definition MeV : R := 1000000.
(** SolarModel.h:32-41 *)
Definition limits (f : flux) : list R :=
  match f with
  | Fpp => [5040; 423410] | Fpep => [1440000] | Fhep => [18784; 18784000] | Fbe7 => [861800] | Fb8 => [20000; 16560000]
  | Fn13 => [5995; 1199000] | Fo15 => [3464; 1732000] | Ff17 => [3480; 1740000] | FElectron => [] | FDM => []
  end.
(** SolarModel.h:30: the components with a file of their spectrum *)
Definition has_file (f : flux) : bool := match f with Fpp | Fhep | Fb8 | Fn13 | Fo15 | Ff17 => true | _ => false end.

(** ** gsl_interp_linear *)
Record lin := Lin { lx : list R; ly : list R }.
Fixpoint increasing (x : list R) : bool :=
  match x with
  | a :: ((b :: _) as x') => if Rlt_dec a b then increasing x' else false
  | _ => true
  end.
(** gsl_spline_alloc and gsl_spline_init: two points at least, strictly increasing *)
Definition lin_init (x y : list R) : outcome lin :=
  if Nat.ltb (List.length x) 2 then Throw OtherExn
  else if increasing x then Ok (Lin x y) else Throw OtherExn.
(** the line through two points, gsl's linear.c:linear_eval *)
Definition chord (x0 x1 y0 y1 t : R) : R := y0 + (t - x0) / (x1 - x0) * (y1 - y0).
(** the interval [x_i <= t < x_(i+1)], or the last one *)
Fixpoint lin_at (x y : list R) (t : R) : R :=
  match x, y with
  | x0 :: ((x1 :: x2) as x'), y0 :: ((y1 :: _) as y') =>
    match x2 with
    | [] => chord x0 x1 y0 y1 t
    | _ => if Rlt_dec t x1 then chord x0 x1 y0 y1 t else lin_at x' y' t
    end
  | _, _ => 0
  end.
(** gsl_spline_eval *)
Definition lin_eval (s : lin) (t : R) : outcome R :=
  if Rlt_dec t (hd 0 (lx s)) then Throw OtherExn
  else if Rlt_dec (last (lx s) 0) t then Throw OtherExn
  else Ok (lin_at (lx s) (ly s) t).

(** ** SolarModel *)
Record solar := Solar { rspline : flux -> lin; espline : flux -> option lin }.

Fixpoint column (i : nat) (rows : list (list R)) : outcome (list R) :=
  match rows with
  | [] => Ok []
  | r :: rows' => match nth_error r i with None => UB | Some v => obind (column i rows') (fun c => Ok (v :: c)) end
  end.
(** SolarModel.cpp:11-15: element 0 of XfluxRarr is never set; [junk] is what it holds. An array without elements is UB. *)
Definition radii (junk : R) (rows : list (list R)) : outcome (list R) :=
  match rows with
  | [] => UB
  | _ :: rows' => obind (column 0 rows') (fun c => Ok (junk :: c))
  end.
(** 17-24: the spline of column i+1 *)
Definition radial_spline (junk : R) (rows : list (list R)) (f : flux) : outcome lin :=
  obind (radii junk rows) (fun x => obind (column (S (index f)) rows) (fun y => lin_init x y)).
(** 26-40: the spectrum of a component *)
Definition energy_spline (spec : flux -> list (R * R)) (f : flux) : outcome (option lin) :=
  if has_file f then obind (lin_init (map (fun p => fst p * MeV) (spec f)) (map snd (spec f))) (fun s => Ok (Some s)) else Ok None.
Definition all_flux : list flux := [Fpp; Fpep; Fhep; Fbe7; Fb8; Fn13; Fo15; Ff17; FElectron; FDM].
Fixpoint each {A : Type} (f : flux -> outcome A) (l : list flux) : outcome (list (flux * A)) :=
  match l with [] => Ok [] | k :: l' => obind (f k) (fun v => obind (each f l') (fun r => Ok ((k, v) :: r))) end.
Definition pick {A : Type} (d : A) (l : list (flux * A)) (f : flux) : A :=
  match find (fun e => flux_eqb (fst e) f) l with Some e => snd e | None => d end.
(** splineinit, 6-41 *)
Definition make_solar (junk : R) (rows : list (list R)) (spec : flux -> list (R * R)) : outcome solar :=
  obind (each (radial_spline junk rows) all_flux) (fun rs =>
  obind (each (energy_spline spec) all_flux) (fun es => Ok (Solar (pick (Lin [] []) rs) (pick None es)))).

Definition outside (r : R) : bool := (if Rlt_dec 1 r then true else false) || (if Rlt_dec r 0 then true else false).
(** nuFlux, 43-60 *)
Definition nu_flux (s : solar) (r E : R) (f : flux) : outcome R :=
  if outside r then Throw RuntimeError
  else if Rlt_dec E Emin then Ok 0
  else if Rlt_dec Emax E then Ok 0
  else match limits f with
       | [_] => lin_eval (rspline s f) (r * Rsun)
       | [lo; hi] =>
         if Rlt_dec lo E then
           if Rlt_dec E hi then
             match espline s f with
             | None => UB
             | Some es => obind (lin_eval (rspline s f) (r * Rsun)) (fun a => obind (lin_eval es E) (fun b => Ok (a * b)))
             end
           else Ok 0
         else Ok 0
       | _ => Throw RuntimeError
       end.
(** eDensity and DMDensity, 62-74 *)
Definition e_density (s : solar) (r : R) : outcome R := if outside r then Throw RuntimeError else lin_eval (rspline s FElectron) (r * Rsun).
Definition dm_density (s : solar) (r : R) : outcome R := if outside r then Throw RuntimeError else lin_eval (rspline s FDM) (r * Rsun).
(** NumComp, 76-78, and the loop over FluxType(i) *)
Definition components : list flux := firstn 8 all_flux.

(** ** SOP. [n] flavours, [U] the mixing matrix (row: flavour, column: mass state), [d] the energy differences,
    [hi] HI_constants, [eig] SU_vector::GetEigenSystem *)

(** gsl_eigen_hermv_sort with GSL_EIGEN_SORT_VAL_ASC (GSL, eigen/sort.c): selection sort; columns follow the eigenvalues *)
Definition swap_at {A : Type} (i k : nat) (f : nat -> A) : nat -> A :=
  fun x => if Nat.eqb x i then f k else if Nat.eqb x k then f i else f x.
Fixpoint smallest (l : nat -> R) (m j k : nat) : nat :=
  match m with
  | O => k
  | S m' => smallest l m' (S j) (if Rlt_dec (l j) (l k) then j else k)
  end.
Fixpoint sort_from (m i : nat) (e : (nat -> R) * mat) : (nat -> R) * mat :=
  match m with
  | O => e
  | S m' => let k := smallest (fst e) m (S i) i in
            sort_from m' (S i) (swap_at i k (fst e), fun a => swap_at i k (snd e a))
  end.
Definition hermv_sort (n : nat) (e : (nat -> R) * mat) : (nat -> R) * mat := sort_from (n - 1) 0 e.

Inductive fval := Num (x : R) | NotNum.

Section Sop.
  Variables (n : nat) (U : mat) (d : nat -> R) (hi : R) (eig : mat -> (nat -> R) * mat).
  (** the projector on the electron flavour in the mass basis; RotateToB0 back to flavours *)
  Definition e_proj : mat := mmult n (dagger U) (mmult n (ket_proj 0) U).
  Definition to_b0 (h : mat) : mat := mmult n U (mmult n h (dagger U)).
  (** Hamiltonian, SolarProbabilities.cpp:29-39, for the electron density [ne] *)
  Definition hamiltonian (E ne : R) : mat := mplus (mscale (1 / (2 * E)) (dm2 n d)) (mscale (hi * ne) e_proj).
  (** the sum of 21-25 *)
  Definition overlap (V : mat) : R := rsum n (fun i => cnorm2 (V 0%nat i) * cnorm2 (U 0%nat i)).
  (** SolarOscillationProbability, 6-27. Energy 0 makes infinities: not modelled. *)
  Definition probability (m : option solar) (E r : R) : outcome R :=
    match m with
    | None => Throw RuntimeError
    | Some s =>
      obind (e_density s r) (fun ne =>
        if Req_EM_T E 0 then UB else Ok (overlap (snd (hermv_sort n (eig (to_b0 (hamiltonian E ne)))))))
    end.

  (** 49, 66: a quotient of doubles; by zero it is infinite *)
  Definition near_line (E El : R) : bool := if Req_EM_T E 0 then false else if Rlt_dec (Rabs (E - El) / E) (1 / 100) then true else false.
  Definition line_of (f : flux) : R := hd 0 (limits f).
  (** the loop of 46-54 *)
  Fixpoint pee_sum (m : solar) (E r : R) (l : list flux) (acc : R) : outcome R :=
    match l with
    | [] => Ok acc
    | f :: l' =>
      if negb (is_line f) then
        obind (probability (Some m) E r) (fun p => obind (nu_flux m r E f) (fun x => pee_sum m E r l' (acc + p * x)))
      else if near_line E (line_of f) then
        obind (probability (Some m) (line_of f) r) (fun p => obind (nu_flux m r (line_of f) f) (fun x => pee_sum m E r l' (acc + p * x)))
      else pee_sum m E r l' acc
    end.
  (** the loop of 63-70 *)
  Fixpoint flux_sum (m : solar) (E r : R) (l : list flux) (acc : R) : outcome R :=
    match l with
    | [] => Ok acc
    | f :: l' =>
      if negb (is_line f) then obind (nu_flux m r E f) (fun x => flux_sum m E r l' (acc + x))
      else if near_line E (line_of f) then obind (nu_flux m r (line_of f) f) (fun x => flux_sum m E r l' (acc + x))
      else flux_sum m E r l' acc
    end.
  (** [quad]: nuSQuIDS's integrate over 0..0.99 (GSL's QAGS). A null pointer is followed in the integrand. *)
  Variable quad : (R -> outcome R) -> outcome R.
  (** RadialIntegratedFluxes, 60-73 *)
  Definition radial_flux (m : option solar) (E : R) : outcome R :=
    match m with None => UB | Some s => quad (fun r => flux_sum s E r components 0) end.
  (** PeeSquare, 41-58: a value times one over zero is infinite or not a number *)
  Definition pee_square (m : option solar) (E : R) : outcome fval :=
    obind (radial_flux m E) (fun total =>
      match m with
      | None => UB
      | Some s => obind (quad (fun r => pee_sum s E r components 0)) (fun v =>
          if Req_EM_T total 0 then Ok NotNum else Ok (Num (v * (1 / total))))
      end).
End Sop.
