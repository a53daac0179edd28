(** Summing dimensions away one after the other, in any order. *)
From Coq Require Import List Arith ZArith Lia Bool.
From Verif Require Import Err MarrayModel MarraySpec MarrayProofs MarrayEditProofs MarrayLoopProofs MarrayOpProofs.
Import ListNotations.

(** sum(d1) of the result of sum(d2) of ... *)
Fixpoint sum_dims (a : marray Z) (ds : list nat) : outcome (marray Z) :=
  match ds with [] => Ok a | d :: ds' => obind (sum_dim a d) (fun s => sum_dims s ds') end.

(** Product of the extents, an extent of 0 counting as 1. *)
Definition prod1 (es : list nat) : nat := prod (map (Nat.max 1) es).

Lemma prod1_app l1 l2 : prod1 (l1 ++ l2) = prod1 l1 * prod1 l2.
Proof. unfold prod1. now rewrite map_app, prod_app. Qed.
Lemma prod1_pos l : 0 < prod1 l.
Proof. unfold prod1. induction l as [|e l IH]; cbn [map prod]; [lia|]. assert (0 < Nat.max 1 e) by lia. nia. Qed.
Lemma prod_le_prod1 l : prod l <= prod1 l.
Proof. unfold prod1. induction l as [|e l IH]; cbn [map prod]; [lia|]. apply Nat.mul_le_mono; lia. Qed.
Lemma prod1_drop es d : prod1 (drop_nth es d) <= prod1 es.
Proof.
  unfold drop_nth. rewrite <- (firstn_skipn d es) at 3. rewrite !prod1_app. apply Nat.mul_le_mono_l.
  destruct (skipn d es) as [|e l] eqn:E.
  - replace (skipn (S d) es) with (@nil nat); [lia|]. symmetry. apply skipn_all2.
    assert (length (skipn d es) = 0) by now rewrite E. rewrite skipn_length in H. lia.
  - replace (skipn (S d) es) with l.
    + unfold prod1. cbn [map prod]. assert (1 <= Nat.max 1 e) by lia. nia.
    + clear - E. revert es E. induction d as [|d IH]; intros [|x es] E; cbn [skipn] in *; try discriminate; [congruence|].
      destruct es as [|y es]; [now rewrite skipn_nil in E|]. rewrite <- (IH (y :: es)) by exact E. reflexivity.
Qed.
Lemma prod1_tl es : prod1 (tl es) <= prod1 es.
Proof. destruct es as [|e l]; [reflexivity|]. cbn [tl]. unfold prod1. cbn [map prod]. assert (1 <= Nat.max 1 e) by lia. nia. Qed.

Lemma prod1_stride es : (Z.of_nat (prod1 es) < two31)%Z -> stride_ok es.
Proof.
  intros H. pose proof (prod_le_prod1 es). pose proof (prod_le_prod1 (tl es)). pose proof (prod1_tl es).
  unfold stride_ok, two64. unfold two31 in *. lia.
Qed.

Lemma sum_dims_total ds : forall a s, wf a -> (Z.of_nat (prod1 (exts a)) < two31)%Z -> sum_dims a ds = Ok s -> sum_all s = sum_all a.
Proof.
  induction ds as [|d ds IH]; intros a s Hwf Hp Hs; cbn [sum_dims] in Hs; [congruence|].
  destruct (sum_dim a d) as [s1| |] eqn:E; try discriminate. cbn [obind] in Hs.
  assert (Hd : d < length (exts a) /\ 1 < length (exts a)).
  { unfold sum_dim in E. destruct (Nat.ltb_spec d (length (exts a))); destruct (Nat.ltb_spec 1 (length (exts a)));
      cbn [andb negb] in E; try discriminate; auto. }
  destruct (nth_error (exts a) d) as [e|] eqn:Ee; [|apply nth_error_None in Ee; lia].
  pose proof (prod1_drop (exts a) d) as Hle.
  assert (Hst : stride_ok (drop_nth (exts a) d)) by (apply prod1_stride; lia).
  rewrite <- (sum_dim_total a d e s1 Hwf Ee (proj2 Hd) Hst E).
  destruct (sum_dim_spec a d e Hwf Ee (proj2 Hd) Hst) as (s1' & E' & Hwf1 & Hex & _).
  assert (s1' = s1) by congruence. subst s1'.
  apply (IH s1 s); trivial. rewrite Hex. lia.
Qed.
Lemma sum_dims_ok ds : forall a, wf a -> (Z.of_nat (prod1 (exts a)) < two31)%Z -> length ds < length (exts a) ->
  (forall k d, nth_error ds k = Some d -> d < length (exts a) - k) -> exists s, sum_dims a ds = Ok s /\ length (exts s) = length (exts a) - length ds.
Proof.
  induction ds as [|d ds IH]; intros a Hwf Hp Hl Hd; cbn [sum_dims length] in *; [exists a; split; [reflexivity|lia]|].
  assert (Hd0 : d < length (exts a)) by (pose proof (Hd 0 d eq_refl); lia).
  destruct (nth_error (exts a) d) as [e|] eqn:Ee; [|apply nth_error_None in Ee; lia].
  pose proof (prod1_drop (exts a) d) as Hle.
  destruct (sum_dim_spec a d e Hwf Ee ltac:(lia)) as (s1 & E & Hwf1 & Hex & _); [apply prod1_stride; lia|].
  rewrite E. cbn [obind].
  assert (Hl1 : length (exts s1) = length (exts a) - 1) by (rewrite Hex, drop_nth_length by lia; reflexivity).
  destruct (IH s1) as (s & Hs & Hls); trivial.
  - rewrite Hex. lia.
  - lia.
  - intros k d' Hk. specialize (Hd (S k) d' Hk). lia.
  - exists s. split; [exact Hs|lia].
Qed.
