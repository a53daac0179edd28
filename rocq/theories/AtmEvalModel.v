(** Model of nuSQUIDSAtm::EvalFlavor (include/nuSQuIDS/nuSQuIDS.h:1083-1087, 1332-1505): flavour content between the
    nodes of an ensemble.

    Simplified: doubles are reals (no rounding, no NaN; the length of a node's trajectory and the distance of two
    neighbouring nodes must not be zero for the quotients to mean anything); SU_vectors are the matrices of FlavorModel;
    the storage reused between calls (a static of the first call's dimension) is left out; the draw of the production
    height is an argument. *)
From Coq Require Import Reals List Arith Bool.
From Verif Require Import Err CMatrix FlavorModel.
Import ListNotations.
Open Scope R_scope.

Definition rltb (x y : R) : bool := if Rlt_dec x y then true else false.

(** std::lower_bound of libstdc++ (bits/stl_algobase.h): a bisection; [fuel] bounds the turns of the loop *)
Fixpoint lower_from (fuel : nat) (l : list R) (x : R) (first len : nat) : nat :=
  match fuel with
  | O => first
  | S k =>
      match len with
      | O => first
      | _ =>
          let half := Nat.div2 len in
          let mid := (first + half)%nat in
          if rltb (nth mid l 0) x then lower_from k l x (S mid) (len - half - 1) else lower_from k l x first half
      end
  end.
Definition lower_bound (l : list R) (x : R) : nat := lower_from (length l) l x 0 (length l).

(** 1351-1356, 1367-1372: the node before the first one not below [x], or the first node *)
Definition node_below (l : list R) (x : R) : outcome nat :=
  let i := lower_bound l x in
  if Nat.eqb i (length l) then Throw RuntimeError else Ok (Nat.pred i).

(** 1341, 1343: below the first or above the last entry; an empty array has neither *)
Definition outside (l : list R) (x : R) : outcome bool :=
  match hd_error l with
  | None => UB
  | Some a => Ok (rltb x a || rltb (last l 0) x)
  end.

(** 1083-1087 *)
Definition lin_inter (x xM xP yM yP : R) : R :=
  let f2 := (x - xM) / (xP - xM) in
  let f1 := 1 - f2 in
  f1 * yM + f2 * yP.

(** What a node contributes: clock, clock at the start, length of its trajectory, density matrices by energy and type *)
Record enode := ENode { en_t : R; en_t0 : R; en_len : R; en_rho : list (list mat) }.
Record eatm := EAtm {
  ea_ini : option bool;
  ea_made : bool;
  ea_cos : list R;
  ea_E : list R;
  ea_nodes : list enode;
  ea_earth : option (R -> R);      (* length of the trajectory for a cosine; None: no Earth model *)
  ea_h0 : R -> nat -> mat;         (* H0 of the first node *)
  ea_proj : list (list mat) }.     (* flavour projectors of the first node, by type *)

Definition at2 {A} (l : list (list A)) (i j : nat) : option A :=
  match nth_error l i with Some r => nth_error r j | None => None end.
Definition need {A} (x : option A) : outcome A := match x with Some a => Ok a | None => UB end.

(** 1385-1388: time the projector is evolved by; [len] the length of the trajectory asked for *)
Definition t_inter (len : R) (n1 n2 : enode) : R :=
  5 / 10 * (len * (en_t n1 - en_t0 n1) / en_len n1 + len * (en_t n2 - en_t0 n2) / en_len n2).

(** 1399-1409: trace with the states of one node at the two energies *)
Definition at_node (n : nat) (P : mat) (f1 f2 : R) (lo hi : mat) : R :=
  expect n (mplus (mscale f1 lo) (mscale f2 hi)) P.

(** 1332-1413 with [ev := evolve]; 1423-1505 with the averaging evolution.  [n] is the dimension, [shift] the random
    production height (0 if not asked for). *)
Definition eval_atm (ev : mat -> R -> mat -> mat) (n : nat) (o : eatm)
    (flv : nat) (costh enu : R) (rho : nat) (shift : R) : outcome R :=
  obind (need (ea_ini o)) (fun ini =>
  if negb ini then Throw RuntimeError
  else if negb (ea_made o) then Throw RuntimeError
  else if negb (Nat.eqb rho 0 || Nat.eqb rho 1) then Throw RuntimeError
  else
  obind (outside (ea_cos o) costh) (fun oc =>
  if oc then Throw RuntimeError else
  obind (outside (ea_E o) enu) (fun oe =>
  if oe then Throw RuntimeError else
  obind (node_below (ea_cos o) costh) (fun m =>
  obind (node_below (ea_E o) enu) (fun e =>
  obind (need (ea_earth o)) (fun track =>
  obind (need (nth_error (ea_nodes o) m)) (fun n1 =>
  obind (need (nth_error (ea_nodes o) (S m))) (fun n2 =>
  obind (need (at2 (ea_proj o) rho flv)) (fun proj =>
  obind (need (nth_error (ea_E o) e)) (fun e1 =>
  obind (need (nth_error (ea_E o) (S e))) (fun e2 =>
  obind (need (at2 (en_rho n1) e rho)) (fun s11 =>
  obind (need (at2 (en_rho n1) (S e) rho)) (fun s12 =>
  obind (need (at2 (en_rho n2) e rho)) (fun s21 =>
  obind (need (at2 (en_rho n2) (S e) rho)) (fun s22 =>
  obind (need (nth_error (ea_cos o) m)) (fun c1 =>
  obind (need (nth_error (ea_cos o) (S m))) (fun c2 =>
  let P := ev (ea_h0 o enu rho) (t_inter (track costh + shift) n1 n2) proj in
  let f2 := (enu - e1) / (e2 - e1) in
  let f1 := 1 - f2 in
  Ok (lin_inter costh c1 c2 (at_node n P f1 f2 s11 s12) (at_node n P f1 f2 s21 s22))))))))))))))))))).
