(** The progress bar: nuSQUIDS::ProgressBar (src/nuSQuIDS.cpp:2787-2800), when
    it is drawn (PreDerive 292-295, EvolveState 1287-1288 and 1303-1304) and the
    members it uses (nuSQuIDS.h:484-489, Get_DebugCounter 1028,
    Set_ProgressBar 2817-2819).

    The looks at the medium are the events of StateModel.v; what a call prints
    is a function of them and of the position it leaves in the trajectory.
    progressbar_loop is 100: nothing sets it.  Doubles are reals; the
    conversion of a double to int is undefined for what int does not hold
    (StateModel.to_int), and so is 0/0 or a division of something else by zero,
    which gives a NaN or an infinity that is converted. *)
From Coq Require Import Reals List ZArith Bool Ascii.
From Verif Require Import Err StateModel.
Import ListNotations.
Open Scope R_scope.

(** what stands between the brackets, and the number before the percent sign *)
Record line := Line { l_bar : list ascii; l_percent : Z }.

(** 2792-2796 *)
Definition draw (width : nat) (pos : Z) : list ascii :=
  map (fun i => if Z.ltb (Z.of_nat i) pos then "="%char
                else if Z.eqb (Z.of_nat i) pos then ">"%char else " "%char) (seq 0 width).

(** 2787-2800 *)
Definition progress_bar (t : track) (x : R) : outcome line :=
  if Req_EM_T (tr_fin t - tr_ini t) 0 then UB
  else
    let progress := (x - tr_ini t) / (tr_fin t - tr_ini t) in
    match to_int (70 * progress), to_int (progress * 100) with
    | Some pos, Some percent => Ok (Line (draw 70 pos) percent)
    | _, _ => UB
    end.

(** progressbar and progressbar_count *)
Record bar := Bar { on : bool; count : Z }.

(** 292-295: one look at position [p]; the count is an int *)
Definition look (t : track) (b : bar) (p : R) : outcome (list line * bar) :=
  obind (if on b && Z.eqb (Z.rem (count b) 100) 0
         then obind (progress_bar t p) (fun l => Ok [l]) else Ok []) (fun ls =>
  if Z.ltb (count b) int_max then Ok (ls, Bar (on b) (count b + 1)%Z) else UB).

(** the looks of a call; between two of them nothing is printed *)
Fixpoint looks (t : track) (b : bar) (ev : list event) : outcome (list line * bar) :=
  match ev with
  | [] => Ok ([], b)
  | EvQuery _ _ p :: ev' =>
    obind (look t b p) (fun '(l, b1) => obind (looks t b1 ev') (fun '(l', b2) => Ok (l ++ l', b2)))
  | _ :: ev' => looks t b ev'
  end.

(** a call on an object with trajectory [ot]; an evolution that returns draws the
    bar once more, at the position [x'] it left.  Without a trajectory there are
    no looks. *)
Definition shown (c : call) (ot : option track) (r : res) (ev : list event) (x' : R) (b : bar)
  : outcome (list line * bar) :=
  match ot with
  | None => Ok ([], b)
  | Some t =>
    obind (looks t b ev) (fun '(ls, b1) =>
    match c, r with
    | CEvolve, Done => if on b1 then obind (progress_bar t x') (fun l => Ok (ls ++ [l], b1)) else Ok (ls, b1)
    | _, _ => Ok (ls, b1)
    end)
  end.

(** An object, the calls made so far (latest first), its bar and all lines
    printed.  Set_ProgressBar may come at any time. *)
Inductive session (e : env) (s0 : nus) : list entry -> nus -> bar -> list line -> Prop :=
| ss_new : session e s0 [] s0 (Bar false 0) []
| ss_switch h s b o v : session e s0 h s b o -> session e s0 h s (Bar v (count b)) o
| ss_call h s b o c r s' ev ls b' :
    session e s0 h s b o -> exec e c s = (r, s', ev) -> (forall u, r <> Undef u) ->
    shown c (q_track s) r ev (q_x s') b = Ok (ls, b') ->
    session e s0 ((c, r, ev, s') :: h) s' b' (o ++ ls).
