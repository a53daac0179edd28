(** Body and track of files written by versions up to 1.0.0:
    nuSQuIDS.cpp:2140-2166, 2353-2374 and SetBodyTrack, 2718-2777, with the
    parameters the classes give out: GetId (body.h:121-737), GetBodyParams
    (body.h:119, body.cpp:172, 232-237) and GetTrackParams (body.h:105-112,
    body.cpp:437-439, 627-629, 785-789).

    An old file holds the number of the body, its parameters, those of the track
    and the present position; that these are what the classes give out today is
    how the reader takes them.  Reading past the end of an array, or an attribute
    that is not there, is undefined.  The bodies read from the files of the
    library are parameters. *)
From Coq Require Import List Arith Reals.
From Verif Require Import Err AkimaModel BodyModel.
Import ListNotations.
Local Open Scope R_scope.

Record old_file := Old { o_id : option nat; o_body : list R; o_track : list R; o_x : option R }.

(** GetId *)
Definition body_id (b : body) : nat :=
  match b with
  | Vacuum => 1 | ConstantDensity _ _ => 2 | VariableDensity _ => 3 | Earth _ => 4 | Sun _ => 5 | SunASnu _ _ => 6
  | EarthAtm _ _ _ => 7
  end%nat.
(** GetBodyParams *)
Definition body_params (b : body) : list R :=
  match b with
  | ConstantDensity rho ye => [rho; ye]
  | VariableDensity t => t_x t ++ t_a t ++ t_b t
  | _ => []
  end.
(** GetTrackParams *)
Definition track_params (t : track) : list R :=
  [ini t; fin t] ++
  match t with
  | Rect _ _ _ _ => []
  | EarthTrack _ _ _ b => [b]
  | SunASnuTrack _ _ _ b => [b]
  | EarthAtmTrack _ _ _ c r h _ => [acos c; r; h]
  end.
Definition old_of (b : body) (t : track) : old_file :=
  Old (Some (body_id b)) (body_params b) (track_params t) (Some (pos t)).

Section Legacy.
Variable km : R.
(** Earth(), Sun(), SunASnu(), EarthAtm(): body.cpp:302, 448, 554, 682 *)
Variables prem_earth library_sun library_sunasnu prem_atm : outcome body.

Definition elem (l : list R) (i : nat) : outcome R := match nth_error l i with Some v => Ok v | None => UB end.
Fixpoint elems (l : list R) (i k : nat) : outcome (list R) :=
  match k with
  | O => Ok []
  | S k' => obind (elem l i) (fun v => obind (elems l (S i) k') (fun r => Ok (v :: r)))
  end.

(** 2718-2777; the process ends for other numbers: None *)
Definition set_body_track (id : nat) (bp tp : list R) : outcome (option (body * track)) :=
  match id with
  | 1%nat => obind (elem tp 0) (fun i => obind (elem tp 1) (fun e => Ok (Some (Vacuum, Rect KVacuum i i e))))
  | 2%nat =>
      obind (elem bp 0) (fun r => obind (elem bp 1) (fun y =>
      obind (elem tp 0) (fun i => obind (elem tp 1) (fun e => Ok (Some (ConstantDensity r y, Rect KConstantDensity i i e))))))
  | 3%nat =>
      let xn := (List.length bp / 3)%nat in
      obind (elems bp 0 xn) (fun x => obind (elems bp xn xn) (fun rho => obind (elems bp (2 * xn) xn) (fun ye =>
      obind (make_variable x rho ye) (fun b =>
      obind (elem tp 0) (fun i => obind (elem tp 1) (fun e => Ok (Some (b, Rect KVariableDensity i i e))))))))
  | 4%nat =>
      obind prem_earth (fun b =>
      obind (elem tp 0) (fun i => obind (elem tp 1) (fun e => obind (elem tp 2) (fun l => Ok (Some (b, EarthTrack i i e l))))))
  | 5%nat =>
      obind library_sun (fun b => obind (elem tp 0) (fun i => obind (elem tp 1) (fun e => Ok (Some (b, Rect KSun i i e)))))
  | 6%nat =>
      obind library_sunasnu (fun b =>
      obind (elem tp 0) (fun i => obind (elem tp 1) (fun e => Ok (Some (b, sunasnu_track km i i e)))))
  | 7%nat =>
      obind prem_atm (fun b => obind (elem tp 2) (fun phi =>
      match make_track km b phi with Some t => Ok (Some (b, t)) | None => UB end))
  | _ => Ok None
  end.

(** 2354-2374 *)
Definition restore (f : old_file) : outcome (option (body * track)) :=
  match o_id f with
  | None => UB
  | Some id =>
      match o_x f with
      | None => UB
      | Some x =>
          obind (set_body_track id (o_body f) (o_track f)) (fun r =>
          match r with None => Ok None | Some (b, t) => Ok (Some (b, set_x t x)) end)
      end
  end.
End Legacy.

(** 2661-2683: tau spectra of old files, one d0 x d1 table for both kinds; the array [blank]
    has just been resized (zeros, marray.h). *)
Definition tau_at (a : list (list (list R))) (r i j : nat) : R := nth j (nth i (nth r a []) []) 0.
Definition read_tau_row (ne rounded : nat) (data : list R) (e1 : nat) : outcome (list R) :=
  obind (elems data (e1 * ne) e1) (fun l => Ok (l ++ repeat 0 (rounded - e1))).
Fixpoint read_tau_rows (ne rounded : nat) (data : list R) (e1 k : nat) : outcome (list (list R)) :=
  match k with
  | O => Ok []
  | S k' => obind (read_tau_row ne rounded data e1) (fun a => obind (read_tau_rows ne rounded data (S e1) k') (fun r => Ok (a :: r)))
  end.
Definition read_tau (nrhos ne rounded : nat) (data : list R) : outcome (list (list (list R))) :=
  match nrhos with
  | O => Ok []
  | _ => obind (read_tau_rows ne rounded data 0 ne) (fun t => Ok (repeat t nrhos))
  end.
