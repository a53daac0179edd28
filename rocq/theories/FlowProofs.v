(** The von Neumann equation with a constant Hamiltonian has a solution from every start. *)
From Coq Require Import Reals List Arith Bool Lia Lra.
From Verif Require Import CMatrix FlavorModel FlavorProofs FlavorEqn AvgProofs TransProofs ExpProofs.
Import ListNotations.
Local Open Scope R_scope.

Definition place : Type := nat * nat * bool.
Definition places (n : nat) : list place :=
  flat_map (fun i => flat_map (fun j => [(i, j, true); (i, j, false)]) (seq 0 n)) (seq 0 n).
Definition in_places (n : nat) (p : place) : bool := let '(i, j, _) := p in Nat.ltb i n && Nat.ltb j n.
Lemma in_places_ok n p : in_places n p = true <-> In p (places n).
Proof.
  destruct p as [[i j] b]. unfold in_places, places. rewrite andb_true_iff, !Nat.ltb_lt. split.
  - intros (Hi & Hj). apply in_flat_map. exists i. split; [apply in_seq; lia|]. apply in_flat_map. exists j. split; [apply in_seq; lia|].
    destruct b; cbn; auto.
  - intro H. apply in_flat_map in H. destruct H as (i' & Hi & H). apply in_flat_map in H. destruct H as (j' & Hj & H).
    apply in_seq in Hi. apply in_seq in Hj. destruct H as [[= <- <- _]|[[= <- <- _]|[]]]; lia.
Qed.

Definition vec (A : mat) : place -> R := fun p => let '(i, j, b) := p in if b then re (A i j) else im (A i j).
Definition mat_of (x : place -> R) : mat := fun i j => mkC (x (i, j, true)) (x (i, j, false)).

Definition weight (n : nat) (H : mat) : R := rsum n (fun i => rsum n (fun j => Rabs (re (H i j)) + Rabs (im (H i j)))).
Lemma weight_pos n H : 0 <= weight n H.
Proof. apply rsum_pos. intros i _. apply rsum_pos. intros j _. pose proof (Rabs_pos (re (H i j))). pose proof (Rabs_pos (im (H i j))). lra. Qed.

Definition small (n : nat) (A : mat) (c : R) : Prop := forall i j, (i < n)%nat -> (j < n)%nat -> Rabs (re (A i j)) <= c /\ Rabs (im (A i j)) <= c.

Lemma csum_im n f : im (csum n f) = rsum n (fun i => im (f i)).
Proof. induction n as [|n IH]; [reflexivity|]. cbn [csum rsum]. rewrite <- IH. reflexivity. Qed.

Lemma line n (w x y : nat -> C) c W : (forall k, (k < n)%nat -> Rabs (re (w k)) + Rabs (im (w k)) <= re (x k)) -> rsum n (fun k => re (x k)) <= W -> 0 <= c ->
  (forall k, (k < n)%nat -> Rabs (re (y k)) <= c /\ Rabs (im (y k)) <= c) ->
  Rabs (re (csum n (fun k => cmult (w k) (y k)))) <= W * c /\ Rabs (im (csum n (fun k => cmult (w k) (y k)))) <= W * c.
Proof.
  intros X S C Y. rewrite csum_re, csum_im.
  assert (T : forall z : nat -> R, (forall k, (k < n)%nat -> Rabs (z k) <= re (x k) * c) -> Rabs (rsum n z) <= W * c).
  { intros z Z. eapply Rle_trans; [apply rsum_abs|]. eapply Rle_trans; [apply rsum_le; exact Z|]. rewrite rsum_scal_r. apply Rmult_le_compat_r; assumption. }
  split; apply T; intros k Hk; specialize (X k Hk); destruct (Y k Hk) as (Y1 & Y2).
  - cbn. eapply Rle_trans; [apply Rabs_triang|]. rewrite Rabs_Ropp, !Rabs_mult.
    pose proof (Rabs_pos (re (w k))). pose proof (Rabs_pos (im (w k))). nra.
  - cbn. eapply Rle_trans; [apply Rabs_triang|]. rewrite !Rabs_mult.
    pose proof (Rabs_pos (re (w k))). pose proof (Rabs_pos (im (w k))). nra.
Qed.

Lemma row n H i : (i < n)%nat -> rsum n (fun j => Rabs (re (H i j)) + Rabs (im (H i j))) <= weight n H.
Proof.
  intro Hi. unfold weight. apply (rsum_term n (fun i => rsum n (fun j => Rabs (re (H i j)) + Rabs (im (H i j)))) i Hi).
  intros k _. apply rsum_pos. intros j _. pose proof (Rabs_pos (re (H k j))). pose proof (Rabs_pos (im (H k j))). lra.
Qed.
Lemma column n H j : (j < n)%nat -> rsum n (fun i => Rabs (re (H i j)) + Rabs (im (H i j))) <= weight n H.
Proof.
  intro Hj. unfold weight. rewrite rsum_swap. apply (rsum_term n (fun j => rsum n (fun i => Rabs (re (H i j)) + Rabs (im (H i j)))) j Hj).
  intros k _. apply rsum_pos. intros i _. pose proof (Rabs_pos (re (H i k))). pose proof (Rabs_pos (im (H i k))). lra.
Qed.

Lemma coherent_small n H A c : (0 < n)%nat -> small n A c -> small n (coherent n H A) (2 * weight n H * c).
Proof.
  intros N S i j Hi Hj.
  assert (C : 0 <= c) by (destruct (S 0%nat 0%nat N N) as (X & _); pose proof (Rabs_pos (re (A 0%nat 0%nat))); lra).
  destruct (line n (fun k => H i k) (fun k => rtc (Rabs (re (H i k)) + Rabs (im (H i k)))) (fun k => A k j) c (weight n H)) as (P1 & P2).
  { intros k _. cbn. lra. } { exact (row n H i Hi). } { exact C. } { intros k Hk. apply S; assumption. }
  destruct (line n (fun k => H k j) (fun k => rtc (Rabs (re (H k j)) + Rabs (im (H k j)))) (fun k => A i k) c (weight n H)) as (Q1 & Q2).
  { intros k _. cbn. lra. } { exact (column n H j Hj). } { exact C. } { intros k Hk. apply S; assumption. }
  assert (EX : mmult n A H i j = csum n (fun k => cmult (H k j) (A i k))) by (apply csum_ext; intros k _; ring).
  unfold coherent. rewrite EX. unfold mmult. set (p := csum n (fun k => cmult (H i k) (A k j))) in *. set (q := csum n (fun k => cmult (H k j) (A i k))) in *.
  cbn. split.
  - replace (0 * (re p + - re q) - -1 * (im p + - im q)) with (im p + - im q) by ring. eapply Rle_trans; [apply Rabs_triang|]. rewrite Rabs_Ropp. lra.
  - replace (0 * (im p + - im q) + -1 * (re p + - re q)) with (- (re p + - re q)) by ring. rewrite Rabs_Ropp. eapply Rle_trans; [apply Rabs_triang|]. rewrite Rabs_Ropp. lra.
Qed.

Definition act (n : nat) (H : mat) (x : place -> R) : place -> R := vec (coherent n H (mat_of x)).
Lemma act_lin n H c x d y p : In p (places n) -> act n H (fun j => c * x j + d * y j) p = c * act n H x p + d * act n H y p.
Proof.
  intro P. apply in_places_ok in P. destruct p as [[i j] b]. unfold in_places in P. rewrite andb_true_iff, !Nat.ltb_lt in P. destruct P as (Hi & Hj).
  unfold act, vec.
  assert (M : meq n (mat_of (fun p => c * x p + d * y p)) (mplus (mscale c (mat_of x)) (mscale d (mat_of y)))).
  { intros a1 b1 _ _. unfold mat_of, mplus, mscale. apply Ceq; cbn; ring. }
  rewrite (coherent_meq n H H _ _ (meq_refl _ _) M i j Hi Hj), (coherent_lin_r n H c _ d _ i j Hi Hj).
  unfold mplus, mscale. destruct b; cbn; ring.
Qed.
Lemma act_bound n H x c : (forall p, In p (places n) -> Rabs (x p) <= c) -> forall p, In p (places n) -> Rabs (act n H x p) <= 2 * weight n H * c.
Proof.
  intros S p P. apply in_places_ok in P. destruct p as [[i j] b]. unfold in_places in P. rewrite andb_true_iff, !Nat.ltb_lt in P. destruct P as (Hi & Hj).
  destruct (coherent_small n H (mat_of x) c) with (i := i) (j := j) as (B1 & B2); try assumption; [lia| |unfold act, vec; destruct b; assumption].
  intros a b1 Ha Hb. unfold mat_of. cbn. split; apply S, in_places_ok; unfold in_places; rewrite andb_true_iff, !Nat.ltb_lt; split; assumption.
Qed.
Lemma twice_pos n H : 0 <= 2 * weight n H.
Proof. pose proof (weight_pos n H). lra. Qed.

(** from [A], after [t] *)
Definition cflow (n : nat) (H A : mat) (t : R) : mat :=
  mat_of (flow place (places n) (in_places n) (in_places_ok n) (act n H) (2 * weight n H) (twice_pos n H) (act_bound n H) (vec A) t).
Lemma cflow_0 n H A : meq n (cflow n H A 0) A.
Proof.
  intros i j Hi Hj. unfold cflow, mat_of. rewrite !flow_0 by (apply in_places_ok; unfold in_places; rewrite andb_true_iff, !Nat.ltb_lt; split; assumption).
  unfold vec. destruct (A i j). reflexivity.
Qed.
Theorem cflow_solves n H A t : mderiv n (cflow n H A) t (coherent n H (cflow n H A t)).
Proof.
  intros i j Hi Hj.
  assert (P : forall b, In (i, j, b) (places n)) by (intro b; apply in_places_ok; unfold in_places; rewrite andb_true_iff, !Nat.ltb_lt; split; assumption).
  pose proof (fun b => flow_solves place (places n) (in_places n) (in_places_ok n) (act n H) (2 * weight n H) (twice_pos n H) (act_lin n H) (act_bound n H) (vec A) t (i, j, b) (P b)) as F.
  split; [exact (F true)|exact (F false)].
Qed.
