(** nuSQUIDSAtm::EvalFlavor (include/nuSQuIDS/nuSQuIDS.h:1332-1413) asked of an ensemble of AtmModel: what AtmEvalModel
    takes as given is read off the nodes here.

    The numbers of a node's state are read as matrices by [dec] (EndModel).  [tracks b c] is the trajectory
    EarthAtm::MakeTrackWithCosine (body.h) of medium [b] makes; a node without trajectory (GetTrackFast on null) cannot
    occur and counts as one of length zero. *)
From Coq Require Import Reals List Arith Bool.
From Verif Require Import Err IntModel XsModel StateModel AtmModel CMatrix FlavorModel EndModel AtmEvalModel.
Import ListNotations.
Local Open Scope R_scope.

Definition length_of (t : track) : R := tr_fin t - tr_ini t.

Section View.
Variable order : list (nat * nat).
Variable dec : nat -> nat -> list R -> nat -> nat -> mat.
Variable tracks : body -> R -> track.

(** Get_t, Get_t_initial, GetTrackFast and GetState of a node (1380-1401) *)
Definition node_view (s : nus) : enode :=
  ENode (sq_t (q_sq s)) (sq_t0 (q_sq s)) (match q_track s with Some t => length_of t | None => 0 end)
    (map (fun ie => map (fun r => matrix dec s (sq_state (q_sq s)) ie r) (seq 0 (q_nrhos s))) (seq 0 (q_ne s))).

(** nusq_array[0].H0(E, rho) (1386): DM2 is kept from the last time the state was set, the switch is the present one *)
Definition first_H (a : atm) (E : R) (rho : nat) : mat :=
  match a_nodes a with s :: _ => h0 (q_numneu s) (o_osc (q_opts s)) (h_dm (q_h0 s)) E | [] => mzero end.

(** nusq_array[0].GetFlavorProj(flv, rho) (1397) *)
Definition first_P (a : atm) : list (list mat) :=
  match a_nodes a with
  | s :: _ => map (fun r => map (fun f => stored_P order s r f) (seq 0 (q_numneu s))) (seq 0 (q_nrhos s))
  | [] => []
  end.

Definition first_dim (a : atm) : nat := match a_nodes a with s :: _ => q_numneu s | [] => 0%nat end.

Definition view (a : atm) : eatm :=
  EAtm (a_ini a) (a_made a) (a_cos a) (a_E a) (map node_view (a_nodes a))
    (match a_earth a with Some b => Some (fun c => length_of (tracks b c)) | None => None end)
    (first_H a) (first_P a).

(** EvalFlavor(flv, costh, enu, rho), without the random production height *)
Definition read_atm (a : atm) (flv : nat) (costh enu : R) (rho : nat) : outcome R :=
  eval_atm FlavorModel.evolve (first_dim a) (view a) flv costh enu rho 0.
End View.
