(** What a progress bar should show. *)
From Coq Require Import Reals List ZArith Bool Ascii Arith.
From Verif Require Import StateModel ProgModel.
Import ListNotations.
Open Scope R_scope.

(** the part of the way that is done at position [p] *)
Definition share (t : track) (p : R) : R := (p - tr_ini t) / (tr_fin t - tr_ini t).
Definition on_way (t : track) (p : R) : Prop := tr_ini t <= p <= tr_fin t \/ tr_fin t <= p <= tr_ini t.

(** a line that shows it: [n] signs of equality, the head if there is room, blanks; whole percents *)
Definition shows (t : track) (p : R) (l : line) : Prop :=
  (exists n : nat, (n <= 70)%nat /\ INR n <= 70 * share t p < INR n + 1 /\
     l_bar l = repeat "="%char n ++ (if Nat.ltb n 70 then ">"%char :: repeat " "%char (69 - n) else [])) /\
  IZR (l_percent l) <= 100 * share t p < IZR (l_percent l) + 1.

(** the positions at which the medium was looked at *)
Definition positions (ev : list event) : list R :=
  flat_map (fun a => match a with EvQuery _ _ p => [p] | _ => [] end) ev.

(** every hundredth of them, if [k] came before *)
Definition hundredths (k : nat) (ps : list R) : list R :=
  map (fun i => nth (i - k) ps 0) (filter (fun i => Nat.eqb (i mod 100) 0) (seq k (length ps))).

(** looks made in all calls so far *)
Definition looked (h : list entry) : nat := length (flat_map (fun en => positions (snd (fst en))) h).

(** The solver asks for derivatives only between the two ends of the step, and does ask. *)
Definition asks_inside (e : env) : Prop := forall s dt,
  fst (fst (fst (e_solve e s dt))) <> [] /\
  forall x, In x (fst (fst (fst (e_solve e s dt)))) ->
    sq_t (q_sq s) <= x <= sq_t (q_sq s) + dt \/ sq_t (q_sq s) + dt <= x <= sq_t (q_sq s).
