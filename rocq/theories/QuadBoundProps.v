(** C19, C20: bounds of the results, and that the fast integration ends. *)
From Coq Require Import List Arith Reals Lra Lia.
From Verif Require Import Err QuadModel QuadProofs QuadProps QuadTermProps.
Import ListNotations.
Local Open Scope R_scope.

Lemma seven_between f a b m M : a < b -> (forall x, a <= x <= b -> m <= f x <= M) -> m * (b - a) <= seven_point f a b <= M * (b - a).
Proof.
  intros Hab Hf.
  pose proof (weights_7 (fun x => f x - m) a b Hab ltac:(intros x Hx; specialize (Hf x Hx); lra)) as H1.
  pose proof (weights_7 (fun x => M - f x) a b Hab ltac:(intros x Hx; specialize (Hf x Hx); lra)) as H2.
  unfold seven_point in *. lra.
Qed.
Lemma pieces_between f m M : forall pts a b, increasing_to a pts b -> (forall x, a <= x <= b -> m <= f x <= M) ->
  m * (b - a) <= over_pieces (seven_point f) a pts <= M * (b - a).
Proof.
  induction pts as [|p ps IH]; intros a b P Hf; cbn [increasing_to over_pieces] in *; [subst; lra|].
  destruct P as [P1 P2]. pose proof (increasing_le _ _ _ P2).
  pose proof (seven_between f a p m M P1 ltac:(intros x Hx; apply Hf; lra)). pose proof (IH p b P2 ltac:(intros x Hx; apply Hf; lra)). lra.
Qed.
Lemma thirteen_between f a b m M : a < b -> 0 <= m -> (forall x, a <= x <= b -> m <= f x <= M) ->
  (1 - / 10 ^ 15) * (m * (b - a)) <= kronrod13 f a b (f a) (f b) <= (1 + / 10 ^ 15) * (M * (b - a)).
Proof.
  intros Hab Hm Hf. assert (HM : 0 <= M) by (pose proof (Hf a ltac:(lra)); lra).
  pose proof (weights_13 (fun x => f x - m) a b Hab ltac:(intros x Hx; specialize (Hf x Hx); lra)) as H1.
  pose proof (weights_13 (fun x => M - f x) a b Hab ltac:(intros x Hx; specialize (Hf x Hx); lra)) as H2.
  pose proof (Rmult_le_pos m (b - a) Hm ltac:(lra)) as Q1. pose proof (Rmult_le_pos M (b - a) HM ltac:(lra)) as Q2.
  unfold kronrod13 in *. cbn [yv] in *.
  set (w := b - a) in *. lra.
Qed.
(** The integral of an integrand between two bounds is between them times the width, within the rounding of the decimal constants. *)
Theorem c19_between : forall f fuel a b tol opt r m M, a < b -> given f opt a b -> 0 <= m -> (forall x, a <= x <= b -> m <= f x <= M) ->
  integrate f fuel a b tol opt = Some (Ok r) -> (1 - / 10 ^ 15) * (m * (b - a)) <= integral r <= (1 + / 10 ^ 15) * (M * (b - a)).
Proof.
  intros f fuel a b tol opt r m M Hab Hg Hm Hf H. assert (HM : 0 <= M) by (pose proof (Hf a ltac:(lra)); lra).
  destruct (c19_partition _ _ _ _ _ _ _ Hab Hg H) as [->|(pts & T & P1 & P2 & -> & _)]; [now apply thirteen_between|].
  pose proof (pieces_between f m M pts a b P1 Hf). pose proof (Rmult_le_pos m (b - a) Hm ltac:(lra)) as Q1. pose proof (Rmult_le_pos M (b - a) HM ltac:(lra)) as Q2.
  assert (0 < / 10 ^ 15) by (apply Rinv_0_lt_compat, pow_lt; lra). nra.
Qed.
Print Assumptions c19_between.
(** So a bin average of a cross section is between the least and the greatest in the bin. *)
Theorem c20_between : forall f fuel a b tol v m M, a < b -> 0 <= m -> (forall x, a <= x <= b -> m <= f x <= M) -> fast_int f fuel a b tol = Some (Ok v) ->
  (1 - / 10 ^ 15) * m <= v / (b - a) <= (1 + / 10 ^ 15) * M.
Proof.
  intros f fuel a b tol v m M Hab Hm Hf H. assert (HM : 0 <= M) by (pose proof (Hf a ltac:(lra)); lra).
  assert (G : (1 - / 10 ^ 15) * (m * (b - a)) <= v <= (1 + / 10 ^ 15) * (M * (b - a))).
  { assert (E0 : 0 < / 10 ^ 15) by (apply Rinv_0_lt_compat, pow_lt; lra).
    pose proof (Rmult_le_pos m (b - a) Hm ltac:(lra)) as Q1. pose proof (Rmult_le_pos M (b - a) HM ltac:(lra)) as Q2.
    assert (W : m * (b - a) <= v <= M * (b - a) -> (1 - / 10 ^ 15) * (m * (b - a)) <= v <= (1 + / 10 ^ 15) * (M * (b - a))) by (intros; nra).
    destruct sqrt3 as [S3 Sq]. assert (Sp : 0 <= 1 / sqrt 3) by (left; apply Rdiv_lt_0_compat; [lra|apply sqrt_lt_R0; lra]).
    assert (S1 : 1 / sqrt 3 <= 1) by nra.
    pose proof (Hf a ltac:(lra)) as Ha. pose proof (Hf b ltac:(lra)) as Hb. pose proof (Hf ((a + b) / 2) ltac:(lra)) as Hc.
    destruct (c20_documented_rules f fuel a b tol v ltac:(lra) H) as [E|[E|[E|(r & E & E')]]].
    - apply W. rewrite E. unfold trapezoid. nra.
    - apply W. rewrite E. unfold gauss2. replace ((b - a) / 2 / sqrt 3) with (1 / sqrt 3 * ((b - a) / 2)) by (field; assumption). set (t := 1 / sqrt 3) in *.
      pose proof (Hf ((a + b) / 2 - t * ((b - a) / 2)) ltac:(split; nra)). pose proof (Hf ((a + b) / 2 + t * ((b - a) / 2)) ltac:(split; nra)). nra.
    - apply W. rewrite E. unfold simpson. nra.
    - rewrite E'. apply (c19_between f fuel a b tol (Options None None) r m M); trivial. split; now left. }
  assert (P : 0 < b - a) by lra. split; apply (Rmult_le_reg_r (b - a) _ _ P); replace (v / (b - a) * (b - a)) with v by (field; lra); lra.
Qed.
Print Assumptions c20_between.
(** It ends, for every integrand which is bounded near zero. *)
Theorem c20_terminates : forall f a b tol, a <= b -> tame_at_zero f a b -> exists N, forall fuel, (N <= fuel)%nat -> exists r, fast_int f fuel a b tol = Some r.
Proof.
  intros f a b tol Hab Ht.
  assert (Hg : given f (Options (Some (f a)) (Some (f b))) (Rmin a b) (Rmax a b)) by (rewrite Rmin_left, Rmax_right by lra; split; now right).
  destruct (c19_terminates f a b tol _ Hg Ht) as (N & HN). exists N. intros fuel Hfu. destruct (HN fuel Hfu) as [r Hr].
  destruct (fast_points f a b) as (E0 & E4 & E2 & E1 & E3). unfold fast_int. cbv zeta. rewrite E0, E1, E2, E3, E4, Hr.
  repeat (match goal with |- exists _, (if ?c then _ else _) = _ => destruct c end; [eexists; reflexivity|]). eexists. reflexivity.
Qed.
Print Assumptions c20_terminates.
(** A case: x^3 on [1, 2], between 1 and 8. *)
Example c20_between_case : (forall x, 1 <= x <= 2 -> 1 <= x * x * x <= 8) /\ tame_at_zero (fun x => x * x * x) 1 2.
Proof.
  split; [intros x Hx; assert (1 <= x * x <= 4) by nra; nra|]. exists 1, 8. split; [lra|]. intros x Hx _. rewrite Rmin_left, Rmax_right in Hx by lra.
  assert (1 <= x * x <= 4) by nra. apply Rabs_le. nra.
Qed.
