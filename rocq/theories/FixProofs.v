(** The correction node by node. *)
From Coq Require Import Reals List Arith Bool Lia Lra.
From Verif Require Import CMatrix FlavorModel FlavorProofs FlavorEqn PosModel.
Open Scope R_scope.

Lemma repeat_ind {X} (I : nat -> X -> Prop) (f : nat -> X -> X) m : forall lo x,
  I lo x -> (forall i y, (lo <= i < lo + m)%nat -> I i y -> I (S i) (f i y)) -> I (lo + m)%nat (repeat_for m lo f x).
Proof.
  induction m as [|m IH]; intros lo x H0 Hs; cbn [repeat_for].
  - rewrite Nat.add_0_r. exact H0.
  - rewrite Nat.add_succ_r, <- Nat.add_succ_l. apply IH; [apply Hs; [lia|exact H0]|]. intros i y L. apply Hs. lia.
Qed.

(** ** One node *)
Section Node.
Variable n : nat.
Variable content : mat -> nat -> R.
Variable Q : nat -> mat.

Definition step (k : nat) (M : mat) : mat :=
  if Rlt_dec (content M k) 0 then mplus M (mscale (- content M k) (Q k)) else M.
Definition node (M : mat) : mat := repeat_for n 0 step M.

Hypothesis lin : forall M k x j, (k < n)%nat -> (j < n)%nat ->
  content (mplus M (mscale x (Q j))) k = content M k + (if Nat.eqb k j then x else 0).

Definition lack (M : mat) (k : nat) : R := Rmax 0 (- content M k).

Lemma step_content M j k : (j < n)%nat -> (k < n)%nat ->
  content (step j M) k = if Nat.eqb k j then Rmax 0 (content M k) else content M k.
Proof.
  intros Hj Hk. unfold step. destruct (Rlt_dec (content M j) 0) as [N|N].
  - rewrite lin by assumption. destruct (Nat.eqb k j) eqn:E; [|ring]. apply Nat.eqb_eq in E as ->.
    rewrite Rmax_left by lra. ring.
  - destruct (Nat.eqb k j) eqn:E; [|reflexivity]. apply Nat.eqb_eq in E as ->. rewrite Rmax_right by lra. reflexivity.
Qed.

Lemma node_content M k : (k < n)%nat -> content (node M) k = Rmax 0 (content M k).
Proof.
  intro Hk. unfold node.
  assert (G : forall k, (k < n)%nat -> content (repeat_for n 0 step M) k = if Nat.ltb k (0 + n) then Rmax 0 (content M k) else content M k).
  { refine (repeat_ind (fun i y => forall k, (k < n)%nat -> content y k = if Nat.ltb k i then Rmax 0 (content M k) else content M k)
      step n 0 M _ _).
    - reflexivity.
    - intros i y Li IH k' Hk'. rewrite step_content by lia. rewrite IH by exact Hk'.
      destruct (Nat.eqb k' i) eqn:E.
      + apply Nat.eqb_eq in E as ->. rewrite Nat.ltb_irrefl. replace (Nat.ltb i (S i)) with true by (symmetry; apply Nat.ltb_lt; lia). reflexivity.
      + apply Nat.eqb_neq in E. destruct (Nat.ltb k' i) eqn:L1.
        * apply Nat.ltb_lt in L1. replace (Nat.ltb k' (S i)) with true by (symmetry; apply Nat.ltb_lt; lia). reflexivity.
        * apply Nat.ltb_ge in L1. replace (Nat.ltb k' (S i)) with false by (symmetry; apply Nat.ltb_ge; lia). reflexivity. }
  rewrite G by exact Hk. replace (Nat.ltb k (0 + n)) with true by (symmetry; apply Nat.ltb_lt; lia). reflexivity.
Qed.

(** what is added: the lacking amount of each flavour *)
Lemma node_added M : forall a b, node M a b = cplus (M a b) (msum n (fun k => mscale (lack M k) (Q k)) a b).
Proof.
  unfold node.
  assert (G : (forall k, (k < n)%nat -> content (repeat_for n 0 step M) k = if Nat.ltb k (0 + n) then Rmax 0 (content M k) else content M k) /\
    forall a b, repeat_for n 0 step M a b = cplus (M a b) (msum (0 + n) (fun k => mscale (lack M k) (Q k)) a b)).
  { refine (repeat_ind (fun i y => (forall k, (k < n)%nat -> content y k = if Nat.ltb k i then Rmax 0 (content M k) else content M k) /\
      forall a b, y a b = cplus (M a b) (msum i (fun k => mscale (lack M k) (Q k)) a b)) step n 0 M _ _).
    - split; [reflexivity|]. intros a b. cbn. unfold mzero. ring.
    - intros i y Li [IH1 IH2]. split.
      + intros k' Hk'. rewrite step_content by lia. rewrite IH1 by exact Hk'.
        destruct (Nat.eqb k' i) eqn:E.
        * apply Nat.eqb_eq in E as ->. rewrite Nat.ltb_irrefl. replace (Nat.ltb i (S i)) with true by (symmetry; apply Nat.ltb_lt; lia). reflexivity.
        * apply Nat.eqb_neq in E. destruct (Nat.ltb k' i) eqn:L1.
          -- apply Nat.ltb_lt in L1. replace (Nat.ltb k' (S i)) with true by (symmetry; apply Nat.ltb_lt; lia). reflexivity.
          -- apply Nat.ltb_ge in L1. replace (Nat.ltb k' (S i)) with false by (symmetry; apply Nat.ltb_ge; lia). reflexivity.
      + intros a b. cbn [msum]. unfold step. rewrite (IH1 i) by lia. rewrite Nat.ltb_irrefl. unfold lack at 2.
        destruct (Rlt_dec (content M i) 0) as [N|N].
        * rewrite Rmax_right by lra. unfold mplus. rewrite IH2. ring.
        * rewrite Rmax_left by lra. rewrite IH2. unfold mplus. unfold mscale at 3. rewrite rtc_0. ring. }
  intros a b. apply G.
Qed.
End Node.

(** ** All nodes *)
Lemma upd_same S e r M : upd S e r M e r = M.
Proof. unfold upd. rewrite !Nat.eqb_refl. reflexivity. Qed.
Lemma upd_other S e r M e' r' : ~ (e' = e /\ r' = r) -> upd S e r M e' r' = S e' r'.
Proof.
  intro N. unfold upd. destruct (Nat.eqb e' e) eqn:A; [|reflexivity]. destruct (Nat.eqb r' r) eqn:B; [|reflexivity].
  apply Nat.eqb_eq in A, B. tauto.
Qed.

Definition one (read : nat -> nat -> mat -> nat -> R) (Pt : nat -> nat -> nat -> mat) (r e k : nat) (S : states) : states :=
  if Rlt_dec (read r e (S e r) k) 0 then upd S e r (mplus (S e r) (mscale (- read r e (S e r) k) (Pt r k e))) else S.
Lemma flavours_node read Pt r e : forall m lo S,
  repeat_for m lo (one read Pt r e) S e r = repeat_for m lo (step (read r e) (fun k => Pt r k e)) (S e r) /\
  (forall e' r', ~ (e' = e /\ r' = r) -> repeat_for m lo (one read Pt r e) S e' r' = S e' r').
Proof.
  induction m as [|m IH]; intros lo S; cbn [repeat_for]; [auto|].
  destruct (IH (Datatypes.S lo) (one read Pt r e lo S)) as (A & B). split.
  - rewrite A. f_equal. unfold step, one. destruct (Rlt_dec _ 0); [apply upd_same|reflexivity].
  - intros e' r' N. rewrite B by exact N. unfold one. destruct (Rlt_dec _ 0); [apply upd_other; exact N|reflexivity].
Qed.

Lemma positivize_at nrhos ne n read Pt S e r :
  positivize nrhos ne n read Pt S e r =
  if Nat.ltb e ne && Nat.ltb r nrhos then node n (read r e) (fun k => Pt r k e) (S e r) else S e r.
Proof.
  set (inner := fun r e => repeat_for n 0 (one read Pt r e)).
  change (positivize nrhos ne n read Pt S) with (repeat_for nrhos 0 (fun r => repeat_for ne 0 (fun e => inner r e)) S).
  assert (In : forall r e S e' r', inner r e S e' r' = if Nat.eqb e' e && Nat.eqb r' r then node n (read r e) (fun k => Pt r k e) (S e r) else S e' r').
  { intros r1 e1 S1 e' r'. destruct (flavours_node read Pt r1 e1 n 0 S1) as (A & B). unfold inner.
    destruct (Nat.eqb e' e1) eqn:Ee; [destruct (Nat.eqb r' r1) eqn:Er|]; cbn [andb].
    - apply Nat.eqb_eq in Ee as ->. apply Nat.eqb_eq in Er as ->. exact A.
    - apply B. apply Nat.eqb_neq in Er. tauto.
    - apply B. apply Nat.eqb_neq in Ee. tauto. }
  assert (Row : forall r1 S1 e' r', repeat_for ne 0 (fun e => inner r1 e) S1 e' r' =
    if Nat.ltb e' (0 + ne) && Nat.eqb r' r1 then node n (read r1 e') (fun k => Pt r1 k e') (S1 e' r1) else S1 e' r').
  { intros r1 S1. refine (repeat_ind (fun i y => forall e' r', y e' r' = if Nat.ltb e' i && Nat.eqb r' r1 then node n (read r1 e') (fun k => Pt r1 k e') (S1 e' r1) else S1 e' r')
      (fun e => inner r1 e) ne 0 S1 _ _).
    - intros e' r'. reflexivity.
    - intros i y Li IH e' r'. rewrite In.
      destruct (Nat.eqb e' i) eqn:Ee.
      + apply Nat.eqb_eq in Ee as ->. replace (Nat.ltb i (Datatypes.S i)) with true by (symmetry; apply Nat.ltb_lt; lia).
        destruct (Nat.eqb r' r1) eqn:Er; cbn [andb].
        * rewrite IH, Nat.ltb_irrefl. reflexivity.
        * rewrite IH, Er, andb_false_r. reflexivity.
      + cbn [andb]. rewrite IH. apply Nat.eqb_neq in Ee. destruct (Nat.ltb e' i) eqn:L1.
        * apply Nat.ltb_lt in L1. replace (Nat.ltb e' (Datatypes.S i)) with true by (symmetry; apply Nat.ltb_lt; lia). reflexivity.
        * apply Nat.ltb_ge in L1. replace (Nat.ltb e' (Datatypes.S i)) with false by (symmetry; apply Nat.ltb_ge; lia). reflexivity. }
  assert (All : forall e' r', repeat_for nrhos 0 (fun r => repeat_for ne 0 (fun e => inner r e)) S e' r' =
    if Nat.ltb e' ne && Nat.ltb r' (0 + nrhos) then node n (read r' e') (fun k => Pt r' k e') (S e' r') else S e' r').
  { refine (repeat_ind (fun i y => forall e' r', y e' r' = if Nat.ltb e' ne && Nat.ltb r' i then node n (read r' e') (fun k => Pt r' k e') (S e' r') else S e' r')
      (fun r => repeat_for ne 0 (fun e => inner r e)) nrhos 0 S _ _).
    - intros e' r'. rewrite andb_false_r. reflexivity.
    - intros i y Li IH e' r'. rewrite Row. cbn [Nat.add]. destruct (Nat.eqb r' i) eqn:Er.
      + apply Nat.eqb_eq in Er as ->. replace (Nat.ltb i (Datatypes.S i)) with true by (symmetry; apply Nat.ltb_lt; lia).
        destruct (Nat.ltb e' ne) eqn:Le; cbn [andb]; rewrite IH, Nat.ltb_irrefl, andb_false_r; reflexivity.
      + rewrite andb_false_r, IH. apply Nat.eqb_neq in Er. destruct (Nat.ltb r' i) eqn:L1.
        * apply Nat.ltb_lt in L1. replace (Nat.ltb r' (Datatypes.S i)) with true by (symmetry; apply Nat.ltb_lt; lia). reflexivity.
        * apply Nat.ltb_ge in L1. replace (Nat.ltb r' (Datatypes.S i)) with false by (symmetry; apply Nat.ltb_ge; lia). reflexivity. }
  apply All.
Qed.

(** ** Projectors *)
Lemma expect_lin n V P Q M k x j : unitary n V -> frame n V P -> (k < n)%nat -> (j < n)%nat -> meq n Q (P j) ->
  expect n (P k) (mplus M (mscale x Q)) = expect n (P k) M + (if Nat.eqb k j then x else 0).
Proof.
  intros U F Hk Hj E. rewrite expect_plus_r, expect_scale_r. f_equal.
  rewrite (expect_meq n _ _ _ _ (meq_refl n (P k)) E). unfold expect. rewrite (frame_trace n V P j k U F Hj Hk).
  unfold delta. destruct (Nat.eqb k j); cbn; ring.
Qed.

Lemma no_filter scale cutoff H t A n : cutoff <= 0 -> meq n (evolve_filtered cutoff scale H t A) (evolve H t A).
Proof.
  intros L a b _ _. unfold evolve_filtered, low_pass. destruct (Rlt_dec 0 cutoff); [lra|]. rewrite rtc_1. ring.
Qed.
Lemma evolve_mzero n t A : meq n (evolve mzero t A) A.
Proof. intros a b _ _. unfold evolve, mzero. cbn. rewrite Rminus_0_r, Rmult_0_l, cexp_0. ring. Qed.
