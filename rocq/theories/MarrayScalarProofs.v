From Coq Require Import List Arith Reals Lia Lra.
From Verif Require Import Err MarrayModel MarraySpec MarrayProofs MarrayEditProofs MarrayOpProofs MarrayScalarModel.
Import ListNotations.

Lemma scal_loop_val op v : forall d2 d1,
  scal_loop op (length d2) (length d1) (d1 ++ d2) (SVal v) = Ok (d1 ++ map (fun x => op x v) d2).
Proof.
  induction d2 as [|x d2 IH]; intros d1; cbn [length scal_loop map]; [reflexivity|].
  rewrite nth_error_app2, Nat.sub_diag by lia. cbn [nth_error].
  replace (set_nth (d1 ++ x :: d2) (length d1) (op x v)) with ((d1 ++ [op x v]) ++ d2).
  - replace (S (length d1)) with (length (d1 ++ [op x v])) by (rewrite app_length; cbn; lia).
    rewrite IH, <- app_assoc. reflexivity.
  - unfold set_nth. rewrite firstn_app, Nat.sub_diag, firstn_all. cbn [firstn]. rewrite app_nil_r.
    replace (skipn (S (length d1)) (d1 ++ x :: d2)) with d2; [now rewrite <- app_assoc|].
    rewrite skipn_app, skipn_all2 by lia. replace (S (length d1) - length d1) with 1 by lia. reflexivity.
Qed.

Lemma scal_assign_val op a v : scal_assign op a (SVal v) = Ok (MArr (exts a) (map (fun x => op x v) (flat a))).
Proof. unfold scal_assign. pose proof (scal_loop_val op v (flat a) []) as E. cbn [length app] in E. rewrite E. reflexivity. Qed.

(** Elementwise reading of a result. *)
Definition elementwise (a r : marray R) (g : R -> R) : Prop :=
  exts r = exts a /\ (wf a -> wf r) /\ forall idx x, at_idx a idx = Some x -> at_idx r idx = Some (g x).

Lemma map_elementwise a g : elementwise a (MArr (exts a) (map g (flat a))) g.
Proof.
  split; [reflexivity|]. split; [unfold wf; cbn; now rewrite map_length|].
  unfold at_idx. cbn. intros idx x H. now apply map_nth_error.
Qed.

Lemma scal_ops a f :
  (exists r, arr_plus_scal a f = Ok r /\ elementwise a r (fun x => (x + f)%R)) /\
  (exists r, scal_plus_arr f a = Ok r /\ elementwise a r (fun x => (f + x)%R)) /\
  (exists r, arr_minus_scal a f = Ok r /\ elementwise a r (fun x => (x - f)%R)) /\
  (exists r, scal_minus_arr f a = Ok r /\ elementwise a r (fun x => (f - x)%R)) /\
  (exists r, arr_mult_scal a f = Ok r /\ elementwise a r (fun x => (x * f)%R)) /\
  (exists r, scal_mult_arr f a = Ok r /\ elementwise a r (fun x => (f * x)%R)) /\
  (exists r, arr_div_scal a f = Ok r /\ elementwise a r (fun x => (x / f)%R)).
Proof.
  assert (E : forall op g, (forall x, op x f = g x) -> exists r, scal_assign op a (SVal f) = Ok r /\ elementwise a r g).
  { intros op g H. rewrite scal_assign_val. eexists; split; [reflexivity|].
    rewrite (map_ext _ g H). apply map_elementwise. }
  repeat split; try (apply E; intros; lra).
  - unfold scal_minus_arr. rewrite scal_assign_val. eexists; split; [reflexivity|]. cbn [exts flat neg_arr].
    rewrite map_map. rewrite (map_ext _ (fun x => (f - x)%R)) by (intros; lra). apply map_elementwise.
Qed.

Lemma neg_elementwise a : elementwise a (neg_arr a) Ropp.
Proof. apply map_elementwise. Qed.
Lemma map_arr_elementwise g a : elementwise a (map_arr g a) g.
Proof. apply map_elementwise. Qed.

(** f / a is a / f. *)
Lemma scal_div_is_swapped f a : exists r, scal_div_arr f a = Ok r /\ elementwise a r (fun x => (x / f)%R).
Proof. unfold scal_div_arr. rewrite scal_assign_val. eexists; split; [reflexivity|]. apply map_elementwise. Qed.
Lemma scal_div_refuted :
  ~ forall f a, wf a -> (forall x, In x (flat a) -> x <> 0%R) -> f <> 0%R ->
     exists r, scal_div_arr f a = Ok r /\ elementwise a r (fun x => (f / x)%R).
Proof.
  intros H. destruct (H 1%R (MArr [1] [2%R])) as (r & Hr & _ & _ & He).
  - reflexivity.
  - intros x [<-|[]]. lra.
  - lra.
  - unfold scal_div_arr in Hr. rewrite scal_assign_val in Hr. injection Hr as <-.
    specialize (He [0] 2%R eq_refl). cbn in He. injection He as He. lra.
Qed.

(** Scaling by a reference to one of the array's own elements does not apply one fixed scalar. *)
Lemma scal_alias_refuted :
  ~ forall op a k v, wf a -> nth_error (flat a) k = Some v ->
     exists r, scal_assign op a (SElem k) = Ok r /\ elementwise a r (fun x => op x v).
Proof.
  intros H. destruct (H Rdiv (MArr [2] [2%R; 4%R]) 0 2%R eq_refl eq_refl) as (r & Hr & _ & _ & He).
  unfold scal_assign in Hr. cbn in Hr. injection Hr as <-.
  specialize (He [1] 4%R eq_refl). cbn in He. injection He as He. lra.
Qed.
(** The last element is safe: all others have been processed when it changes. *)
Lemma scal_loop_last op v : forall d2 d1,
  scal_loop op (length d2) (length d1) (d1 ++ d2 ++ [v]) (SElem (length d1 + length d2)) = Ok (d1 ++ map (fun x => op x v) d2 ++ [v]).
Proof.
  induction d2 as [|x d2 IH]; intros d1; cbn [length scal_loop map]; [reflexivity|].
  rewrite nth_error_app2, Nat.sub_diag by lia. cbn [nth_error app].
  replace (nth_error (d1 ++ x :: d2 ++ [v]) (length d1 + S (length d2))) with (Some v).
  2:{ rewrite nth_error_app2 by lia. replace (length d1 + S (length d2) - length d1) with (S (length d2)) by lia.
      cbn [nth_error]. rewrite nth_error_app2, Nat.sub_diag by lia. reflexivity. }
  replace (set_nth (d1 ++ x :: d2 ++ [v]) (length d1) (op x v)) with ((d1 ++ [op x v]) ++ d2 ++ [v]).
  - replace (S (length d1)) with (length (d1 ++ [op x v])) by (rewrite app_length; cbn; lia).
    replace (length d1 + S (length d2)) with (length (d1 ++ [op x v]) + length d2) by (rewrite app_length; cbn; lia).
    rewrite IH, <- app_assoc. reflexivity.
  - unfold set_nth. rewrite firstn_app, Nat.sub_diag, firstn_all. cbn [firstn]. rewrite app_nil_r.
    replace (skipn (S (length d1)) (d1 ++ x :: d2 ++ [v])) with (d2 ++ [v]); [now rewrite <- app_assoc|].
    rewrite skipn_app, skipn_all2 by lia. replace (S (length d1) - length d1) with 1 by lia. reflexivity.
Qed.

(** Compound assignment of same-shape arrays is elementwise. *)
Lemma arr_assign_op_spec op a1 a2 : wf a1 -> wf a2 -> exts a1 = exts a2 ->
  exists r, arr_assign_op op a1 a2 = Ok r /\ wf r /\ exts r = exts a1 /\
  forall idx x y, at_idx a1 idx = Some x -> at_idx a2 idx = Some y -> at_idx r idx = Some (op x y).
Proof.
  intros H1 H2 E. unfold arr_assign_op. unfold wf in *. rewrite H1, H2, E, Nat.eqb_refl.
  eexists; split; [reflexivity|]. cbn [exts flat]. split; [rewrite zip_with_length; congruence|]. split; [reflexivity|].
  unfold at_idx. cbn [exts flat]. rewrite E. intros idx x y. apply zip_with_nth.
Qed.
(** ... but arrays of different shape and equal size are combined silently, at positions with different indices. *)
Lemma arr_assign_op_shapes :
  exists r, arr_assign_op Rplus (MArr [2; 3] [0;0;0;0;0;0]%R) (MArr [3; 2] [1;2;3;4;5;6]%R) = Ok r /\
  at_idx (MArr [3; 2] [1;2;3;4;5;6]%R) [1; 1] = Some 4%R /\ at_idx r [1; 1] <> Some 4%R.
Proof.
  eexists; split; [reflexivity|]. split; [reflexivity|]. cbn. intros H. injection H as H. lra.
Qed.
