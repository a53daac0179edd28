(** The Python tools of resources/python/bindings/nuSQUIDSTools.py: the matrices
    of the SU(N) basis, printing of SU_vectors, and the points at which the plots
    ask for fluxes; with the bindings they rely on
    (resources/python/src/nuSQUIDSpy.h:266-418) and GetStates
    (nuSQuIDS.h:1793-1802).

    Of numpy we take: np.array of matrices of which one is complex is complex;
    adding a complex array in place to a real one raises; np.arange(a,b,s) holds
    a, a+s, ... up to the last one before b, and raises if s is zero.  Numbers
    are real or complex numbers.  The drawing itself is not modelled. *)
From Coq Require Import Reals List Arith Bool.
From Coq Require Import String.
From Verif Require Import Err CMatrix.
Import ListNotations.
Open Scope R_scope.

(** numpy arrays of one or two dimensions; an element [A[i]] of an array of one
    dimension is at column 0 *)
Record arr := Arr { a_shape : list nat; a_cplx : bool; a_at : nat -> nat -> C }.

(** 21-27 *)
Definition ext_shape (A : arr) : nat * nat :=
  (nth 0 (a_shape A) 0%nat, if Nat.eqb (List.length (a_shape A)) 1 then 1%nat else nth 1 (a_shape A) 0%nat).

(** 29-52; used with real arrays only *)
Definition direct_sum (A B : arr) : arr :=
  let '(ra, ca) := ext_shape A in
  let '(rb, cb) := ext_shape B in
  Arr [(ra + rb)%nat; (ca + cb)%nat] false (fun i j =>
    if Nat.ltb i ra && Nat.ltb j ca then
      if Nat.eqb ca 1 && Nat.eqb j 0 then a_at A i 0%nat
      else if Nat.eqb ca 1 && negb (Nat.eqb j 0) then c0
      else a_at A i j
    else if Nat.leb ra i && Nat.leb ra j then
      if Nat.eqb cb 1 && Nat.eqb j ca then a_at B (i - ra) 0%nat
      else if Nat.eqb cb 1 && negb (Nat.eqb j ca) then c0
      else a_at B (i - ra) (j - ca)
    else c0).

(** 54-58 *)
Definition e_array (j k d : nat) : arr :=
  Arr [d; d] false (fun a b => if Nat.eqb a j && Nat.eqb b k then c1 else c0).

Definition vec1 (x : R) : arr := Arr [1%nat] false (fun _ _ => rtc x).
Definition identity (d : nat) : arr := Arr [d; d] false (fun a b => if Nat.eqb a b then c1 else c0).
Definition times (z : C) (cplx : bool) (A : arr) : arr :=
  Arr (a_shape A) (cplx || a_cplx A) (fun a b => cmult z (a_at A a b)).
Definition plus (A B : arr) : arr :=
  Arr (a_shape A) (a_cplx A || a_cplx B) (fun a b => cplus (a_at A a b) (a_at B a b)).
Definition minus (A B : arr) : arr :=
  Arr (a_shape A) (a_cplx A || a_cplx B) (fun a b => cminus (a_at A a b) (a_at B a b)).

(** 60-73 *)
Fixpoint f_array (j k d : nat) : arr :=
  match d with
  | O => Arr [0%nat; 0%nat] false (fun _ _ => c0)
  | S d' =>
      if Nat.eqb d 1 then vec1 1
      else if Nat.eqb j k && negb (Nat.eqb j (d - 1)) && negb (Nat.eqb j 0) then
        direct_sum (f_array j j d') (vec1 0)
      else if Nat.eqb j k && Nat.eqb k (d - 1) then
        times (rtc (sqrt (2 / (INR d * (INR d - 1))))) false (direct_sum (f_array 0 0 d') (vec1 (1 - INR d)))
      else if Nat.eqb j k && Nat.eqb k 0 then identity d
      else if Nat.ltb k j then plus (e_array j k d) (e_array k j d)
      else times (mkC 0 (-1)) true (minus (e_array j k d) (e_array k j d))
  end.

(** SUBasis, 121-127 *)
Definition su_basis (n : nat) : list arr :=
  flat_map (fun i => map (fun j => f_array j i n) (seq 0 n)) (seq 0 n).

(** _PrintSUVector, 162-167: the sum starts as a real array *)
Fixpoint accumulate (cplx : bool) (basis : list arr) (i : nat) (comps : list R) (acc : mat) : outcome mat :=
  match comps with
  | [] => Ok acc
  | c :: rest =>
      match nth_error basis i with
      | None => Throw OutOfRange
      | Some A =>
          if cplx then Throw OtherExn
          else accumulate cplx basis (S i) rest (mplus acc (mscale c (a_at A)))
      end
  end.
Definition print_su (n : nat) (comps : list R) : outcome mat :=
  let basis := su_basis n in
  accumulate (existsb a_cplx basis) basis 0 comps mzero.

(** what the bindings of the object offer, nuSQUIDSpy.h:266-348 (names used by the tools) *)
Definition bound (name : string) : bool :=
  existsb (String.eqb name) ["GetNumNeu"; "GetNumE"; "GetState"; "GetHamiltonian"]%string.

(** nuSQuIDS.h:891-893: no check; [state] by node and type *)
Definition get_state (state : list (list (list R))) (ie rho : nat) : outcome (list R) :=
  match nth_error state ie with
  | None => UB
  | Some r => match nth_error r rho with None => UB | Some v => Ok v end
  end.

(** PrintH0, 169-173, PrintHI 175-183 and PrintState 197-205.  [ie] negative is
    refused (PrintHI leaves the interpreter) or by the conversion to unsigned. *)
Definition print_h0 (n : nat) : outcome mat :=
  if bound "H0" then print_su n [] else Throw OtherExn.
Definition print_hi (n nume ie : nat) : outcome mat :=
  if Nat.ltb nume ie then Throw OtherExn
  else if bound "HI" then print_su n [] else Throw OtherExn.
Definition print_state (n : nat) (state : list (list (list R))) (ie rho : nat) : outcome mat :=
  (* out of range only prints a message: 202-203 *)
  obind (get_state state ie rho) (fun comps => print_su n comps).

(** the body of a class: a later definition of a name replaces the earlier; 129, 151 *)
Definition methods : list (string * nat) :=     (* name, number of arguments besides self *)
  [("SUBasis", 0); ("PrintStatus", 1); ("PrintStatus", 0); ("PlotFlavor", 0); ("PlotMass", 0);
   ("PlotComposition", 0); ("_PrintSUVector", 1); ("PrintH0", 1); ("PrintHI", 1); ("PrintMixingMatrix", 0)]%string%nat.
Definition lookup (name : string) : option nat :=
  fold_left (fun r p => if String.eqb (fst p) name then Some (snd p) else r) methods None.
Definition callable (name : string) (args : nat) : bool :=
  match lookup name with Some m => Nat.eqb m args | None => false end.

(** how C++ members are cast when bound, nuSQUIDSpy.h:302-314: the types of the
    arguments and whether it is const.  Calling a member through another type is
    undefined. *)
Inductive cpp := Unsigned | Double | Flags.
Definition same_type (a b : list cpp * bool) : bool :=
  (if list_eq_dec (fun x y : cpp => ltac:(decide equality)) (fst a) (fst b) then true else false) && Bool.eqb (snd a) (snd b).
Definition through (cast real : list cpp * bool) {A} (result : outcome A) : outcome A :=
  if same_type cast real then result else UB.
Definition real_get_state : list cpp * bool := ([Unsigned; Unsigned], true).     (* nuSQuIDS.h:891 *)
Definition cast_get_state_1 : list cpp * bool := ([Unsigned], false).            (* nuSQUIDSpy.h:313 *)
Definition py_get_state (state : list (list (list R))) (ie : nat) : outcome (list R) :=
  through cast_get_state_1 real_get_state (get_state state ie 0).

(** GetStates of the atmospheric object, nuSQuIDS.h:1793-1802; [nodes] by cosine, node of energy, type *)
Fixpoint get_states (nodes : list (list (list (list R)))) (rho : nat) : outcome (list (list R)) :=
  match nodes with
  | [] => Ok []
  | nd :: rest => obind (get_state nd 0 rho) (fun v => obind (get_states rest rho) (fun l => Ok (v :: l)))
  end.

(** np.arange(lo, hi, (hi-lo)/N), 238-242 and 303-307 *)
Definition sampled (lo hi : R) (N : nat) : outcome (list R) :=
  if Req_EM_T hi lo then Throw OtherExn
  else Ok (map (fun i => lo + INR i * ((hi - lo) / INR N)) (seq 0 N)).
Definition log10 (x : R) : R := ln x / ln 10.
Definition pow10 (x : R) : R := exp (x * ln 10).
(** PlotFlavor 285-307 without limits given: the energies and cosines asked for *)
Definition plot_energies (erange : list R) (N : nat) : outcome (list R) :=
  obind (sampled (log10 (hd 0 erange + 1 / 10)) (log10 (last erange 0 - 1 / 10)) N) (fun l => Ok (map pow10 l)).
Definition plot_cosines (crange : list R) (N : nat) : outcome (list R) := sampled (hd 0 crange) (last crange 0) N.
(** PlotFlavorRatio 219-242 *)
Definition ratio_energies (e1 e2 : list R) (N : nat) : outcome (list R) :=
  obind (sampled (log10 (Rmax (hd 0 e1) (hd 0 e2) + 1 / 10)) (log10 (Rmin (last e1 0) (last e2 0) - 1 / 10)) N)
    (fun l => Ok (map pow10 l)).
Definition ratio_cosines (c1 c2 : list R) (N : nat) : outcome (list R) :=
  sampled (Rmax (hd 0 c1) (hd 0 c2)) (Rmin (last c1 0) (last c2 0)) N.
