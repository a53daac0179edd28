(** Search in the arrays and arithmetic of the interpolation. *)
From Coq Require Import Reals List Arith Lia Lra Bool.
From Verif Require Import Err CMatrix FlavorModel FlavorProofs AtmEvalModel.
Import ListNotations.
Open Scope R_scope.

Definition increasing (l : list R) : Prop :=
  forall i j, (i < j)%nat -> (j < length l)%nat -> nth i l 0 < nth j l 0.

Lemma rltb_true x y : rltb x y = true <-> x < y.
Proof. unfold rltb. destruct (Rlt_dec x y); split; intros; congruence || auto. Qed.
Lemma rltb_false x y : rltb x y = false <-> y <= x.
Proof. unfold rltb. destruct (Rlt_dec x y); split; intros; try congruence; lra. Qed.

Lemma div2_lt k : (Nat.div2 (S k) < S k)%nat.
Proof. apply Nat.lt_div2. lia. Qed.

Lemma lower_from_range fuel : forall l x first len,
  (first <= lower_from fuel l x first len <= first + len)%nat.
Proof.
  induction fuel as [|k IH]; intros l x first len; cbn [lower_from]; [lia|].
  destruct len as [|len]; [lia|]. pose proof (div2_lt len) as D.
  destruct (rltb _ x).
  - specialize (IH l x (S (first + Nat.div2 (S len))) (S len - Nat.div2 (S len) - 1)%nat). lia.
  - specialize (IH l x first (Nat.div2 (S len))). lia.
Qed.

Lemma lower_bound_le l x : (lower_bound l x <= length l)%nat.
Proof. unfold lower_bound. pose proof (lower_from_range (length l) l x 0 (length l)). lia. Qed.

Lemma lower_from_spec l x (S : increasing l) fuel : forall first len, (len <= fuel)%nat ->
  (first + len <= length l)%nat ->
  (forall i, (i < first)%nat -> nth i l 0 < x) ->
  (forall i, (first + len <= i)%nat -> (i < length l)%nat -> x <= nth i l 0) ->
  (forall i, (i < lower_from fuel l x first len)%nat -> nth i l 0 < x) /\
  (forall i, (lower_from fuel l x first len <= i)%nat -> (i < length l)%nat -> x <= nth i l 0).
Proof.
  induction fuel as [|k IH]; intros first len Hf Hl Lo Hi; cbn [lower_from].
  - assert (len = 0%nat) by lia. subst len. rewrite Nat.add_0_r in Hi. auto.
  - destruct len as [|len]; [rewrite Nat.add_0_r in Hi; auto|]. pose proof (div2_lt len) as D.
    set (h := Nat.div2 (Datatypes.S len)) in *.
    destruct (rltb (nth (first + h) l 0) x) eqn:E.
    + apply rltb_true in E. apply IH; [lia|lia| |].
      * intros i Hi'. destruct (Nat.eq_dec i (first + h)) as [->|N]; [exact E|].
        apply Rlt_trans with (nth (first + h) l 0); [apply S; lia|exact E].
      * intros i A B. apply Hi; lia.
    + apply rltb_false in E. apply IH; [lia|lia|exact Lo|].
      intros i A B. destruct (Nat.eq_dec i (first + h)) as [->|N]; [exact E|].
      apply Rle_trans with (nth (first + h) l 0); [exact E|]. left. apply S; lia.
Qed.

Lemma lower_bound_spec l x : increasing l ->
  (forall i, (i < lower_bound l x)%nat -> nth i l 0 < x) /\
  (forall i, (lower_bound l x <= i)%nat -> (i < length l)%nat -> x <= nth i l 0).
Proof.
  intro S. unfold lower_bound. apply lower_from_spec; auto; [lia|]. intros i A B. lia.
Qed.

(** A sorted list determines where a member of it is found. *)
Lemma lower_bound_at l i : increasing l -> (i < length l)%nat -> lower_bound l (nth i l 0) = i.
Proof.
  intros S Hi. destruct (lower_bound_spec l (nth i l 0) S) as [A B].
  destruct (Nat.lt_trichotomy (lower_bound l (nth i l 0)) i) as [L|[E|G]]; [|exact E|].
  - specialize (B _ (Nat.le_refl _) (Nat.lt_trans _ _ _ L Hi)). pose proof (S _ _ L Hi). lra.
  - specialize (A i G). lra.
Qed.

Lemma last_nth (l : list R) d : l <> [] -> last l d = nth (length l - 1) l d.
Proof.
  induction l as [|a [|b l] IH]; intro N; [congruence|reflexivity|].
  change (last (a :: b :: l) d) with (last (b :: l) d). rewrite IH by congruence.
  cbn [length]. replace (S (S (length l)) - 1)%nat with (S (S (length l) - 1)) by lia. reflexivity.
Qed.

Lemma outside_spec l x : l <> [] -> outside l x = Ok (rltb x (nth 0 l 0) || rltb (nth (length l - 1) l 0) x).
Proof. intro N. unfold outside. rewrite last_nth by exact N. destruct l; [congruence|reflexivity]. Qed.

(** ** Where the search ends *)
Definition bracket (l : list R) (x : R) (i : nat) : Prop :=
  (S i < length l)%nat /\ nth i l 0 <= x <= nth (S i) l 0.
Definition within (l : list R) (x : R) : Prop := nth 0 l 0 <= x <= nth (length l - 1) l 0.

Lemma node_below_bracket l x : increasing l -> (2 <= length l)%nat -> within l x ->
  exists i, node_below l x = Ok i /\ bracket l x i.
Proof.
  intros S L [W1 W2]. destruct (lower_bound_spec l x S) as [A B]. pose proof (lower_bound_le l x) as U.
  unfold node_below. destruct (Nat.eqb_spec (lower_bound l x) (length l)) as [E|N].
  - exfalso. specialize (A (length l - 1)%nat ltac:(lia)). lra.
  - eexists. split; [reflexivity|]. destruct (lower_bound l x) as [|i] eqn:E; cbn [Nat.pred].
    + specialize (B 0%nat ltac:(lia) ltac:(lia)). split; [lia|].
      pose proof (S 0 1 ltac:(lia) ltac:(lia))%nat. lra.
    + split; [lia|]. specialize (A i ltac:(lia)). specialize (B (Datatypes.S i) ltac:(lia) ltac:(lia)). lra.
Qed.

Lemma node_below_at l i : increasing l -> (i < length l)%nat -> node_below l (nth i l 0) = Ok (Nat.pred i).
Proof.
  intros S Hi. unfold node_below. rewrite lower_bound_at by auto.
  destruct (Nat.eqb_spec i (length l)); [lia|reflexivity].
Qed.

Lemma node_below_any l x : (2 <= length l)%nat ->
  node_below l x = Throw RuntimeError \/ exists i, node_below l x = Ok i /\ (S i < length l)%nat.
Proof.
  intro L. unfold node_below. pose proof (lower_bound_le l x) as U.
  destruct (Nat.eqb_spec (lower_bound l x) (length l)); [left; reflexivity|right].
  eexists. split; [reflexivity|]. destruct (lower_bound l x); cbn; lia.
Qed.

(** ** Weights *)
Definition weight (l : list R) (x : R) (i : nat) : R := (x - nth i l 0) / (nth (S i) l 0 - nth i l 0).
Definition mix (w a b : R) : R := (1 - w) * a + w * b.
Definition between (a b v : R) : Prop := Rmin a b <= v <= Rmax a b.

Lemma weight_unit l x i : increasing l -> bracket l x i -> 0 <= weight l x i <= 1.
Proof.
  intros S [L [A B]]. pose proof (S i (Datatypes.S i) ltac:(lia) L) as D. unfold weight.
  assert (P : 0 < nth (Datatypes.S i) l 0 - nth i l 0) by lra.
  assert (Q : 0 < / (nth (Datatypes.S i) l 0 - nth i l 0)) by (apply Rinv_0_lt_compat; exact P).
  split.
  - apply Rmult_le_pos; lra.
  - apply Rmult_le_reg_r with (nth (Datatypes.S i) l 0 - nth i l 0); [exact P|].
    unfold Rdiv. rewrite Rmult_assoc, Rinv_l, Rmult_1_r; lra.
Qed.

Lemma mix_between w a b : 0 <= w <= 1 -> between a b (mix w a b).
Proof.
  intros [A B]. unfold between, mix. unfold Rmin, Rmax. destruct (Rle_dec a b); split; nra.
Qed.

Lemma mix_pos w a b : 0 <= w <= 1 -> 0 <= a -> 0 <= b -> 0 <= mix w a b.
Proof. intros [A B] C D. unfold mix. nra. Qed.

Lemma expect_flip n A B : expect n A B = expect n B A.
Proof. unfold expect. rewrite trace_cycle. reflexivity. Qed.

Lemma expect_mix n P f1 f2 lo hi :
  expect n (mplus (mscale f1 lo) (mscale f2 hi)) P = f1 * expect n P lo + f2 * expect n P hi.
Proof.
  unfold expect.
  rewrite (trace_meq n _ _ (mmult_plus_l n (mscale f1 lo) (mscale f2 hi) P)), trace_plus.
  rewrite (trace_meq n _ _ (mmult_scale_l n f1 lo P)), (trace_meq n _ _ (mmult_scale_l n f2 hi P)).
  rewrite !trace_scale, (trace_cycle n lo P), (trace_cycle n hi P). cbn. ring.
Qed.

(** ** An ensemble whose parts fit together *)
Record fits (nr nf : nat) (o : eatm) : Prop := {
  f_nodes : length (ea_nodes o) = length (ea_cos o);
  f_rows : forall nd, In nd (ea_nodes o) -> length (en_rho nd) = length (ea_E o);
  f_types : forall nd r, In nd (ea_nodes o) -> In r (en_rho nd) -> length r = nr;
  f_proj : length (ea_proj o) = nr;
  f_flavors : forall r, In r (ea_proj o) -> length r = nf;
  f_earth : ea_earth o <> None }.

Definition dnode : enode := ENode 0 0 0 [].
Definition rho_at (o : eatm) (i j rho : nat) : mat :=
  nth rho (nth j (en_rho (nth i (ea_nodes o) dnode)) []) mzero.
Definition proj_at (o : eatm) (rho flv : nat) : mat := nth flv (nth rho (ea_proj o) []) mzero.
Definition track_length (o : eatm) (c : R) : R := match ea_earth o with Some f => f c | None => 0 end.
Definition fraction (o : eatm) (i : nat) : R :=
  let d := nth i (ea_nodes o) dnode in (en_t d - en_t0 d) / en_len d.

Lemma need_nth {A} (l : list A) i d : (i < length l)%nat -> nth_error l i = Some (nth i l d).
Proof. intro H. apply nth_error_nth'. exact H. Qed.

Lemma need_at2 {A} (l : list (list A)) i j k d : (i < length l)%nat -> (forall r, In r l -> length r = k) -> (j < k)%nat ->
  at2 l i j = Some (nth j (nth i l []) d).
Proof.
  intros Hi Hr Hj. unfold at2. rewrite (need_nth l i []) by exact Hi. apply nth_error_nth'.
  rewrite Hr; [exact Hj|]. apply nth_In. exact Hi.
Qed.

Section Eval.
Variable ev : mat -> R -> mat -> mat.
Variables (n nr nf : nat) (o : eatm).
Hypothesis F : fits nr nf o.
Variables (flv : nat) (costh enu : R) (rho : nat) (shift : R).
Hypothesis Hf : (flv < nf)%nat.
Hypothesis Hr : (rho < nr)%nat.

Definition turned_proj (i : nat) : mat :=
  ev (ea_h0 o enu rho) ((track_length o costh + shift) * ((fraction o i + fraction o (S i)) / 2)) (proj_at o rho flv).
Definition corner (i i' j : nat) : R := expect n (turned_proj i) (rho_at o i' j rho).
Definition bilinear (i j : nat) : R :=
  mix (weight (ea_cos o) costh i)
    (mix (weight (ea_E o) enu j) (corner i i j) (corner i i (S j)))
    (mix (weight (ea_E o) enu j) (corner i (S i) j) (corner i (S i) (S j))).

Lemma eval_at i j : ea_ini o = Some true -> ea_made o = true -> (rho <= 1)%nat ->
  outside (ea_cos o) costh = Ok false -> outside (ea_E o) enu = Ok false ->
  node_below (ea_cos o) costh = Ok i -> node_below (ea_E o) enu = Ok j ->
  (S i < length (ea_cos o))%nat -> (S j < length (ea_E o))%nat ->
  eval_atm ev n o flv costh enu rho shift = Ok (bilinear i j).
Proof.
  intros I M R1 O1 O2 N1 N2 L1 L2. destruct F as [Fn Fr Ft Fp Ff Fe].
  assert (In1 : In (nth i (ea_nodes o) dnode) (ea_nodes o)) by (apply nth_In; lia).
  assert (In2 : In (nth (S i) (ea_nodes o) dnode) (ea_nodes o)) by (apply nth_In; lia).
  unfold eval_atm. rewrite I. cbn [need obind negb]. rewrite M. cbn [negb].
  replace (Nat.eqb rho 0 || Nat.eqb rho 1) with true
    by (destruct rho as [|[|k]]; [reflexivity|reflexivity|lia]). cbn [negb].
  rewrite O1. cbn [obind]. rewrite O2. cbn [obind]. rewrite N1. cbn [obind]. rewrite N2. cbn [obind].
  unfold bilinear, corner, turned_proj, track_length.
  destruct (ea_earth o) as [track|]; [|congruence]. cbn [need obind].
  rewrite (need_nth (ea_nodes o) i dnode), (need_nth (ea_nodes o) (S i) dnode) by lia. cbn [need obind].
  rewrite (need_at2 (ea_proj o) rho flv nf mzero) by (auto; lia). cbn [need obind].
  rewrite (need_nth (ea_E o) j 0), (need_nth (ea_E o) (S j) 0) by lia. cbn [need obind].
  assert (G : forall nd k, In nd (ea_nodes o) -> (k < length (ea_E o))%nat ->
    at2 (en_rho nd) k rho = Some (nth rho (nth k (en_rho nd) []) mzero)).
  { intros nd k Hin Hk. apply (need_at2 _ _ _ nr); [rewrite Fr by exact Hin; exact Hk| |exact Hr].
    intros r. apply Ft, Hin. }
  rewrite !G by (assumption || lia). cbn [need obind].
  rewrite (need_nth (ea_cos o) i 0), (need_nth (ea_cos o) (S i) 0) by lia. cbn [need obind].
  f_equal. unfold lin_inter, at_node. rewrite !expect_mix. unfold mix, weight, rho_at, proj_at.
  replace (t_inter (track costh + shift) (nth i (ea_nodes o) dnode) (nth (S i) (ea_nodes o) dnode))
    with ((track costh + shift) * ((fraction o i + fraction o (S i)) / 2)); [reflexivity|].
  unfold t_inter, fraction, Rdiv. replace (5 * / 10) with (/ 2) by field. ring.
Qed.
End Eval.
