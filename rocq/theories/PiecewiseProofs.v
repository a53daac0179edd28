(** Functions given piece by piece on the line: continuity and derivatives. Used for the splines. *)
From Coq Require Import Arith Reals Lra Lia.
Local Open Scope R_scope.

(** Two functions agreeing with [f] left and right of [b]. *)
Lemma glue_continuity f g h b d : 0 < d -> (forall t, b - d < t <= b -> f t = g t) -> (forall t, b <= t < b + d -> f t = h t) ->
  continuity_pt g b -> continuity_pt h b -> continuity_pt f b.
Proof.
  intros Hd Hg Hh Cg Ch. intros e He. destruct (Cg e He) as (d1 & Hd1 & H1). destruct (Ch e He) as (d2 & Hd2 & H2).
  exists (Rmin d (Rmin d1 d2)). split; [repeat apply Rmin_glb_lt; lra|].
  intros t [Ht1 Ht2]. unfold dist in *. cbn [dist Base R_met] in *. unfold R_dist in *.
  pose proof (Rmin_l d (Rmin d1 d2)). pose proof (Rmin_r d (Rmin d1 d2)). pose proof (Rmin_l d1 d2). pose proof (Rmin_r d1 d2).
  apply Rabs_def2 in Ht2. destruct (Rle_dec t b) as [Hle|Hgt].
  - rewrite (Hg t), (Hg b) by lra. apply H1. split; [exact Ht1|]. cbn. unfold R_dist. apply Rabs_def1; lra.
  - rewrite (Hh t), (Hh b) by lra. apply H2. split; [exact Ht1|]. cbn. unfold R_dist. apply Rabs_def1; lra.
Qed.
Lemma glue_derivative f g h b d l : 0 < d -> (forall t, b - d < t <= b -> f t = g t) -> (forall t, b <= t < b + d -> f t = h t) ->
  derivable_pt_lim g b l -> derivable_pt_lim h b l -> derivable_pt_lim f b l.
Proof.
  intros Hd Hg Hh Dg Dh e He. destruct (Dg e He) as (d1 & H1). destruct (Dh e He) as (d2 & H2).
  assert (Hpos : 0 < Rmin d (Rmin d1 d2)) by (repeat apply Rmin_glb_lt; try lra; apply cond_pos).
  exists (mkposreal _ Hpos). intros t Ht0 Ht. cbn in Ht.
  pose proof (Rmin_l d (Rmin d1 d2)). pose proof (Rmin_r d (Rmin d1 d2)). pose proof (Rmin_l d1 d2). pose proof (Rmin_r d1 d2).
  assert (Hb := Ht). apply Rabs_def2 in Hb. destruct (Rle_dec t 0) as [Hle|Hgt].
  - rewrite (Hg (b + t)), (Hg b) by lra. apply H1; [exact Ht0|lra].
  - rewrite (Hh (b + t)), (Hh b) by lra. apply H2; [exact Ht0|lra].
Qed.

Section Pieces.
Variables (f : R -> R) (N : nat) (x : nat -> R) (g : nat -> R -> R).
Hypothesis HN : (0 < N)%nat.
Hypothesis Hinc : forall i, (S i < N)%nat -> x i < x (S i).
(** [f] is piece [j] between knots j and j+1; the outer pieces extend to infinity. *)
Definition on_piece (j : nat) (t : R) : Prop := (j = O \/ x j <= t) /\ (S j = N \/ t <= x (S j)).
Hypothesis Hf : forall j t, (j < N)%nat -> on_piece j t -> f t = g j t.

Lemma find_piece t : exists j, (j < N)%nat /\ (j = O \/ x j <= t) /\ (S j = N \/ t < x (S j)).
Proof.
  assert (H : forall k, (k < N)%nat -> (k = O \/ x k <= t) -> exists j, (j < N)%nat /\ (j = O \/ x j <= t) /\ (S j = N \/ t < x (S j))).
  { intros k. remember (N - k)%nat as r eqn:Er. revert k Er. induction r as [|r IH]; intros k Er Hk Hx; [lia|].
    destruct (Nat.eq_dec (S k) N) as [E|E]; [exists k; auto|].
    destruct (Rlt_dec t (x (S k))) as [Hlt|Hge]; [exists k; auto|]. apply (IH (S k)); try lia. right. lra. }
  apply (H O); auto.
Qed.

(** Either inside a piece or at a knot between two. *)
Lemma locate t : exists j, (j < N)%nat /\
  ((exists d, 0 < d /\ forall u, t - d < u < t + d -> on_piece j u) \/
   (exists i d, j = S i /\ t = x j /\ 0 < d /\ (forall u, t - d < u <= t -> on_piece i u) /\ (forall u, t <= u < t + d -> on_piece j u))).
Proof.
  destruct (find_piece t) as (j & Hj & H1 & H2). exists j. split; [exact Hj|].
  assert (Hup : exists d, 0 < d /\ (S j = N \/ t + d <= x (S j))).
  { destruct H2 as [H2|H2]; [exists 1; split; [lra|auto]|exists (x (S j) - t); split; [lra|right; lra]]. }
  destruct Hup as (d & Hd & Hup).
  assert (Hin : j = O \/ x j < t -> exists d, 0 < d /\ forall u, t - d < u < t + d -> on_piece j u).
  { intros Hlo. assert (Hlow : exists d, 0 < d /\ (j = O \/ x j <= t - d)).
    { destruct Hlo as [H|H]; [exists 1; split; [lra|auto]|exists (t - x j); split; [lra|right; lra]]. }
    destruct Hlow as (d' & Hd' & Hlow). exists (Rmin d d'). split; [now apply Rmin_glb_lt|]. intros u Hu.
    pose proof (Rmin_l d d'). pose proof (Rmin_r d d'). split.
    - destruct Hlow; [auto|right; lra].
    - destruct Hup; [auto|right; lra]. }
  destruct j as [|i]; [left; apply Hin; auto|].
  destruct H1 as [H1|H1]; [discriminate|].
  destruct (Rle_lt_or_eq_dec (x (S i)) t H1) as [Hlt|Heq]; [left; apply Hin; auto|].
  right. exists i, (Rmin d (t - x i)). assert (Hi : x i < x (S i)) by (apply Hinc; lia).
  pose proof (Rmin_l d (t - x i)). pose proof (Rmin_r d (t - x i)).
  split; [reflexivity|]. split; [auto|]. split; [apply Rmin_glb_lt; lra|]. split; intros u Hu; split.
  - right. lra.
  - right. lra.
  - right. lra.
  - destruct Hup; [auto|right; lra].
Qed.

Lemma pieces_continuous : (forall j t, (j < N)%nat -> continuity_pt (g j) t) -> forall t, continuity_pt f t.
Proof.
  intros Hc t. destruct (locate t) as (j & Hj & [(d & Hd & Hu)|(i & d & -> & -> & Hd & Hl & Hr)]).
  - apply glue_continuity with (g := g j) (h := g j) (d := d); auto; intros u Hu'; apply Hf; auto; apply Hu; lra.
  - apply glue_continuity with (g := g i) (h := g (S i)) (d := d); auto; try (intros u Hu'; apply Hf; auto; lia). apply Hc. lia.
Qed.

Variable g' : nat -> R -> R.
Hypothesis Hd : forall j t, (j < N)%nat -> derivable_pt_lim (g j) t (g' j t).
Lemma pieces_derivative j t : (j < N)%nat -> on_piece j t ->
  (forall i, (S i < N)%nat -> t = x (S i) -> g' i t = g' (S i) t) -> derivable_pt_lim f t (g' j t).
Proof.
  intros Hj Ht Hm. destruct (locate t) as (k & Hk & [(d & Hdd & Hu)|(i & d & -> & -> & Hdd & Hl & Hr)]).
  - (* inside piece k; j must be k *)
    assert (E : j = k).
    { destruct (Nat.lt_trichotomy j k) as [Hlt|[E|Hgt]]; [exfalso|exact E|exfalso].
      - (* t <= x (S j) <= x k *)
        assert (Hmono : forall a b, (a <= b)%nat -> (b < N)%nat -> x a <= x b).
        { intros a b Hab. induction Hab as [|b Hab IH]; intros Hb; [lra|]. pose proof (Hinc b Hb). assert (x a <= x b) by (apply IH; lia). lra. }
        destruct Ht as [_ [HtN|Ht]]; [lia|]. pose proof (Hmono (S j) k ltac:(lia) Hk). destruct (Hu (t - d / 2) ltac:(lra)) as [[H0|H0] _]; [lia|lra].
      - assert (Hmono : forall a b, (a <= b)%nat -> (b < N)%nat -> x a <= x b).
        { intros a b Hab. induction Hab as [|b Hab IH]; intros Hb; [lra|]. pose proof (Hinc b Hb). assert (x a <= x b) by (apply IH; lia). lra. }
        destruct Ht as [[Ht|Ht] _]; [lia|]. pose proof (Hmono (S k) j ltac:(lia) Hj). destruct (Hu (t + d / 2) ltac:(lra)) as [_ [H0|H0]]; [lia|lra]. }
    subst k. apply glue_derivative with (g := g j) (h := g j) (d := d); auto; intros u Hu'; apply Hf; auto; apply Hu; lra.
  - assert (Hmono : forall a b, (a < b)%nat -> (b < N)%nat -> x a < x b).
    { intros a b Hab. induction Hab as [|b Hab IH]; intros Hb; [now apply Hinc|]. pose proof (Hinc b Hb). assert (x a < x b) by (apply IH; lia). lra. }
    assert (Hij : g' j (x (S i)) = g' i (x (S i))).
    { destruct (Nat.eq_dec j i) as [->|]; [reflexivity|]. destruct (Nat.eq_dec j (S i)) as [->|]; [symmetry; now apply Hm|].
      exfalso. destruct Ht as [H1 H2]. destruct (Nat.lt_trichotomy j i) as [Hlt|[E|Hgt]]; [|lia|].
      - destruct H2 as [H2|H2]; [lia|]. pose proof (Hmono (S j) (S i) ltac:(lia) Hk). lra.
      - destruct H1 as [H1|H1]; [lia|]. pose proof (Hmono (S i) j ltac:(lia) Hj). lra. }
    rewrite Hij. apply glue_derivative with (g := g i) (h := g (S i)) (d := d); auto; try (intros u Hu'; apply Hf; auto; lia).
    + apply Hd. lia.
    + rewrite (Hm i Hk eq_refl). now apply Hd.
Qed.
End Pieces.
