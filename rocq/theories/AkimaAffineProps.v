(** More of C16: an Akima spline depends on six nodes only, and commutes with scaling the data and adding straight lines. *)
From Coq Require Import List Arith ZArith Reals Lra Lia.
From Verif Require Import Err AkimaModel PiecewiseProofs AkimaProofs AkimaBicubicProps.
Import ListNotations.
Local Open Scope R_scope.

Section Affine.
Variables (x y y' : nat -> R) (n : nat) (a b c : R).
Hypothesis Hn : (3 <= n)%nat.
Hypothesis Hi : increasing x n.

Definition alike (i : nat) : Prop := y' i = a + b * x i + c * y i.

Lemma m_in_affine i : (S i < n)%nat -> alike i -> alike (S i) -> m_in x y' i = b + c * m_in x y i.
Proof. intros H E1 E2. unfold m_in. rewrite E1, E2. pose proof (Hi i H). field. lra. Qed.

(** nodes that the secant [i] depends on *)
Lemma m_affine i : (-2 <= i <= Z.of_nat n)%Z ->
  (forall k, (k < n)%nat -> (i <= Z.of_nat k <= i + 1 \/ i < 0 /\ (k <= 2)%nat \/ Z.of_nat n - 1 <= i /\ (n - 3 <= k)%nat)%Z -> alike k) ->
  m x y' n i = b + c * m x y n i.
Proof.
  intros Hr Ha. unfold m.
  assert (K : forall k, (S k < n)%nat -> (i <= Z.of_nat k <= i \/ i < 0 /\ (k <= 1)%nat \/ Z.of_nat n - 1 <= i /\ (n - 3 <= k)%nat)%Z -> m_in x y' k = b + c * m_in x y k).
  { intros k Hk Hd. apply m_in_affine; [exact Hk| |]; apply Ha; lia. }
  destruct (Z.eqb_spec i (-2)); [rewrite !K by lia; ring|].
  destruct (Z.eqb_spec i (-1)); [rewrite !K by lia; ring|].
  destruct (Z.eqb_spec i (Z.of_nat n - 1)); [rewrite !K by lia; ring|].
  destruct (Z.eqb_spec i (Z.of_nat n)); [rewrite !K by lia; ring|].
  apply K; lia.
Qed.

Lemma abs_affine p q : Rabs (b + c * p - (b + c * q)) = Rabs c * Rabs (p - q).
Proof. rewrite <- Rabs_mult. f_equal. ring. Qed.

Lemma slope_affine p0 q r s o :
  slope (Rabs (b + c * p0 - (b + c * q))) (Rabs (b + c * p0 - (b + c * q)) + Rabs (b + c * r - (b + c * s))) (b + c * q) (b + c * r) (b + c * o)
  = b + c * slope (Rabs (p0 - q)) (Rabs (p0 - q) + Rabs (r - s)) q r o.
Proof.
  rewrite !abs_affine. unfold slope.
  set (L := Rabs (p0 - q)). set (M := Rabs (r - s)).
  assert (0 <= L) by apply Rabs_pos. assert (0 <= M) by apply Rabs_pos.
  destruct (Req_dec c 0) as [->|C].
  - rewrite Rabs_R0. destruct (Rlt_dec 0 (0 * L + 0 * M)); [exfalso; lra|]. ring.
  - pose proof (Rabs_pos_lt c C).
    destruct (Rlt_dec 0 (L + M)) as [P|P].
    + destruct (Rlt_dec 0 (Rabs c * L + Rabs c * M)) as [P'|P']; [|exfalso; apply P'; rewrite <- Rmult_plus_distr_l; apply Rmult_lt_0_compat; assumption].
      cbv zeta. field. lra.
    + destruct (Rlt_dec 0 (Rabs c * L + Rabs c * M)) as [P'|P']; [|reflexivity].
      exfalso. assert (L = 0) by lra. assert (M = 0) by lra. rewrite H2, H3 in P'. lra.
Qed.

Lemma seg_affine j t : (S j < n)%nat -> (forall k, (k < n)%nat -> (j <= k + 2)%nat -> (k <= j + 3)%nat -> alike k) ->
  seg_eval (seg_at x y' n j) t = a + b * t + c * seg_eval (seg_at x y n j) t.
Proof.
  intros Hj Ha.
  assert (M : forall i, (Z.of_nat j - 2 <= i <= Z.of_nat j + 2)%Z -> m x y' n i = b + c * m x y n i).
  { intros i Hr. apply m_affine; [lia|]. intros k Hk Hd. apply Ha; lia. }
  assert (TR : tR x y' n (Z.of_nat j) = b + c * tR x y n (Z.of_nat j)).
  { unfold tR, NEw, Lw. rewrite !M by lia. apply slope_affine. }
  assert (TL : tL x y' n (Z.of_nat j + 1) = b + c * tL x y n (Z.of_nat j + 1)).
  { unfold tL, NEw, Lw. rewrite !M by lia. apply slope_affine. }
  unfold seg_eval, seg_at. cbn. rewrite TR, TL, (M (Z.of_nat j)) by lia.
  assert (E : alike j) by (apply Ha; lia). rewrite E. pose proof (Hi j Hj). field. lra.
Qed.
End Affine.

(** ** C16 *)
(** Scaling the data and adding a straight line does the same to the spline, inside and outside of the table. *)
Theorem c16_affine : forall x y y' n s a b c t v, akima x y n = Ok s -> (forall i, (i < n)%nat -> y' i = a + b * x i + c * y i) ->
  spline_eval s t = Ok v -> exists s', akima x y' n = Ok s' /\ spline_eval s' t = Ok (a + b * t + c * v).
Proof.
  intros x y y' n s a b c t v H Hy Hv. destruct (akima_inv _ _ _ _ H) as (Hn & Hi & ->).
  exists (the_spline x y' n). split; [now apply akima_ok|].
  destruct (find_piece (n - 1) x ltac:(lia) t) as (j & Hj & H1 & H2).
  rewrite (eval_strict x y n t j) in Hv by auto. rewrite (eval_strict x y' n t j) by auto.
  injection Hv as <-. f_equal. apply seg_affine; trivial; [lia|]. intros k Hk _ _. now apply Hy.
Qed.
(** Between two nodes only the data of the three nodes on each side count. *)
Theorem c16_local : forall x y y' n s s' j t, akima x y n = Ok s -> akima x y' n = Ok s' -> (S j < n)%nat ->
  (forall k, (k < n)%nat -> (j <= k + 2)%nat -> (k <= j + 3)%nat -> y' k = y k) -> x j <= t <= x (S j) -> spline_eval s' t = spline_eval s t.
Proof.
  intros x y y' n s s' j t H H' Hj Hy Ht. destruct (akima_inv _ _ _ _ H) as (Hn & Hi & ->). destruct (akima_inv _ _ _ _ H') as (_ & _ & ->).
  rewrite !(eval_piece x _ n t j); trivial; try lia; try (split; [right; lra|right; lra]).
  f_equal. rewrite (seg_affine x y y' n 0 0 1 Hn Hi j t Hj); [ring|].
  intros k H1 H2 H3. unfold alike. rewrite Hy by assumption. ring.
Qed.
(** The same for data that are scaled and tilted near by only. *)
Theorem c16_local_affine : forall x y y' n s s' j t a b c v, akima x y n = Ok s -> akima x y' n = Ok s' -> (S j < n)%nat ->
  (forall k, (k < n)%nat -> (j <= k + 2)%nat -> (k <= j + 3)%nat -> y' k = a + b * x k + c * y k) -> x j <= t <= x (S j) ->
  spline_eval s t = Ok v -> spline_eval s' t = Ok (a + b * t + c * v).
Proof.
  intros x y y' n s s' j t a b c v H H' Hj Hy Ht Hv. destruct (akima_inv _ _ _ _ H) as (Hn & Hi & ->). destruct (akima_inv _ _ _ _ H') as (_ & _ & ->).
  rewrite (eval_piece x y n t j) in Hv; trivial; try lia; try (split; [right; lra|right; lra]).
  rewrite (eval_piece x y' n t j); trivial; try lia; try (split; [right; lra|right; lra]).
  injection Hv as <-. f_equal. now apply seg_affine.
Qed.

(** A case: squares, and the same with the last two of seven nodes changed. *)
Example c16_affine_nonvacuous :
  let x := fun i => INR i in let y := fun i => INR i * INR i in
  let y' := fun i => if Nat.leb i 4 then y i else 3 * y i in
  (exists s, akima x y 7 = Ok s) /\ (exists s, akima x y' 7 = Ok s) /\
  (forall k, (k < 7)%nat -> (1 <= k + 2)%nat -> (k <= 1 + 3)%nat -> y' k = y k) /\ y' 5%nat <> y 5%nat.
Proof.
  cbv zeta. assert (I : strictly_increasing (fun i => INR i) 7) by (intros i j H _; now apply lt_INR).
  split; [|split; [|split]].
  - apply c16_constructor. split; [lia|exact I].
  - apply c16_constructor. split; [lia|exact I].
  - intros k _ _ H. destruct (Nat.leb_spec k 4); [reflexivity|lia].
  - cbn. lra.
Qed.
Print Assumptions c16_affine.
Print Assumptions c16_local.
Print Assumptions c16_local_affine.
