(** Proofs about insert, erase, resize and reshape. *)
From Coq Require Import List Arith ZArith Lia Bool.
From Coq Require Import ZifyBool ZifyNat.
From Verif Require Import Err MarrayModel MarraySpec MarrayProofs.
Import ListNotations.

Lemma nth_error_skipn {A} (l : list A) : forall n k, nth_error (skipn n l) k = nth_error l (n + k).
Proof. induction l as [|x l IH]; intros [|n] k; cbn; trivial; destruct k; reflexivity || apply IH. Qed.
Lemma nth_error_firstn {A} (l : list A) : forall n k, k < n -> nth_error (firstn n l) k = nth_error l k.
Proof. induction l as [|x l IH]; intros [|n] [|k] H; cbn; trivial; try lia. apply IH. lia. Qed.
Lemma nth_error_repeat {A} (v : A) n : forall k, k < n -> nth_error (repeat v n) k = Some v.
Proof. induction n as [|n IH]; intros [|k] H; cbn; trivial; try lia. apply IH. lia. Qed.

Ltac len := rewrite ?app_length, ?firstn_length, ?repeat_length, ?skipn_length; nia.
Ltac napp := repeat (first [ rewrite nth_error_app1 by len | rewrite nth_error_app2 by len ]).

Lemma ins_loop_ok {A} iters a n b (val : A) : forall src, length src = iters * (a + b) ->
  exists d, ins_loop iters a n b val src = Ok d /\ length d = iters * (a + n + b) /\
  forall i j, i < iters -> j < a + n + b ->
    nth_error d (i * (a + n + b) + j) =
    if Nat.ltb j a then nth_error src (i * (a + b) + j)
    else if Nat.ltb j (a + n) then Some val
    else nth_error src (i * (a + b) + (j - n)).
Proof.
  induction iters as [|k IH]; intros src Hl; cbn [ins_loop].
  - exists []. repeat split; intros; lia.
  - destruct (Nat.ltb_spec (length src) (a + b)) as [H|H]; [nia|].
    destruct (IH (skipn (a + b) src)) as (d & Hd & Hld & Hnth); [rewrite skipn_length; lia|].
    rewrite Hd. cbn [obind]. eexists; split; [reflexivity|]. split.
    + rewrite !app_length, !firstn_length, repeat_length, skipn_length, Hld. lia.
    + intros i j Hi Hj. destruct i as [|i].
      * cbn [Nat.mul Nat.add].
        destruct (Nat.ltb_spec j a) as [H1|H1].
        { napp. now rewrite nth_error_firstn. }
        destruct (Nat.ltb_spec j (a + n)) as [H2|H2].
        { napp. rewrite nth_error_repeat; trivial. rewrite firstn_length. lia. }
        napp. rewrite !firstn_length, repeat_length, !Nat.min_l by (rewrite ?skipn_length; lia).
        rewrite nth_error_firstn by lia. rewrite nth_error_skipn. f_equal. lia.
      * rewrite nth_error_app2 by (rewrite firstn_length; nia).
        rewrite nth_error_app2 by (rewrite ?repeat_length, firstn_length; nia).
        rewrite nth_error_app2 by (rewrite ?repeat_length, !firstn_length, skipn_length; nia).
        rewrite !firstn_length, repeat_length, !Nat.min_l by (rewrite ?skipn_length; lia).
        replace (S i * (a + n + b) + j - a - n - b) with (i * (a + n + b) + j) by nia.
        rewrite Hnth by lia. rewrite !nth_error_skipn.
        replace (a + b + (i * (a + b) + j)) with (S i * (a + b) + j) by nia.
        replace (a + b + (i * (a + b) + (j - n))) with (S i * (a + b) + (j - n)) by nia. reflexivity.
Qed.

Lemma era_loop_ok {A} iters a n b : forall src : list A, length src = iters * (a + n + b) ->
  exists d, era_loop iters a n b src = Ok d /\ length d = iters * (a + b) /\
  forall i j, i < iters -> j < a + b ->
    nth_error d (i * (a + b) + j) =
    if Nat.ltb j a then nth_error src (i * (a + n + b) + j)
    else nth_error src (i * (a + n + b) + (j + n)).
Proof.
  induction iters as [|k IH]; intros src Hl; cbn [era_loop].
  - exists []. repeat split; intros; lia.
  - destruct (Nat.ltb_spec (length src) (a + n + b)) as [H|H]; [nia|].
    destruct (IH (skipn (a + n + b) src)) as (d & Hd & Hld & Hnth); [rewrite skipn_length; lia|].
    rewrite Hd. cbn [obind]. eexists; split; [reflexivity|]. split.
    + rewrite !app_length, !firstn_length, skipn_length, Hld. lia.
    + intros i j Hi Hj. destruct i as [|i].
      * cbn [Nat.mul Nat.add].
        destruct (Nat.ltb_spec j a) as [H1|H1].
        { napp. now rewrite nth_error_firstn. }
        napp. rewrite !firstn_length, !Nat.min_l by (rewrite ?skipn_length; lia).
        rewrite nth_error_firstn by lia. rewrite nth_error_skipn. f_equal. lia.
      * rewrite nth_error_app2 by (rewrite firstn_length; nia).
        rewrite nth_error_app2 by (rewrite !firstn_length, skipn_length; nia).
        rewrite !firstn_length, !Nat.min_l by (rewrite ?skipn_length; lia).
        replace (S i * (a + b) + j - a - b) with (i * (a + b) + j) by nia.
        rewrite Hnth by lia. rewrite !nth_error_skipn.
        replace (a + n + b + (i * (a + n + b) + j)) with (S i * (a + n + b) + j) by nia.
        replace (a + n + b + (i * (a + n + b) + (j + n))) with (S i * (a + n + b) + (j + n)) by nia. reflexivity.
Qed.

(** ** Splitting at a dimension *)
Lemma nth_error_split_at {A} (l : list A) k e : nth_error l k = Some e -> l = firstn k l ++ e :: skipn (S k) l.
Proof.
  revert k. induction l as [|x l IH]; intros [|k] H; cbn in *; try discriminate.
  - congruence.
  - f_equal. now apply IH.
Qed.

Lemma valid_split es dim e idx : nth_error es dim = Some e -> valid es idx ->
  exists c, nth_error idx dim = Some c /\ c < e /\ idx = firstn dim idx ++ c :: skipn (S dim) idx /\
  valid (firstn dim es) (firstn dim idx) /\ valid (skipn (S dim) es) (skipn (S dim) idx).
Proof.
  intros He Hv. pose proof (valid_length _ _ Hv) as Hl.
  assert (Hlt : dim < length es) by (apply nth_error_Some; congruence).
  destruct (nth_error idx dim) as [c|] eqn:Hc; [|apply nth_error_None in Hc; lia].
  exists c. pose proof (nth_error_split_at _ _ _ Hc) as Hi. pose proof (nth_error_split_at _ _ _ He) as Hes.
  rewrite Hes, Hi in Hv. apply valid_app in Hv.
  - cbn [valid] in Hv. tauto.
  - rewrite !firstn_length. lia.
Qed.

(** Position of a tuple in terms of block, coordinate and position inside the chunk. *)
Lemma rowmajor_split es dim e idx c : nth_error es dim = Some e -> length idx = length es -> nth_error idx dim = Some c ->
  rowmajor es idx = (rowmajor (firstn dim es) (firstn dim idx) * e + c) * prod (skipn (S dim) es)
                    + rowmajor (skipn (S dim) es) (skipn (S dim) idx).
Proof.
  intros He Hl Hc.
  rewrite (nth_error_split_at _ _ _ He) at 1. rewrite (nth_error_split_at _ _ _ Hc) at 1.
  rewrite rowmajor_app by (rewrite !firstn_length; lia).
  cbn [rowmajor prod]. lia.
Qed.

Lemma prod_split es dim e : nth_error es dim = Some e -> prod es = prod (firstn dim es) * e * prod (skipn (S dim) es).
Proof. intros He. rewrite (nth_error_split_at _ _ _ He) at 1. rewrite prod_app. cbn [prod]. lia. Qed.

Section SetCoord.
Context {X : Type}.
Lemma firstn_set (l : list X) k v : k <= length l -> firstn k (firstn k l ++ v :: skipn (S k) l) = firstn k l.
Proof. intros H. rewrite firstn_app, firstn_firstn, Nat.min_id, firstn_length_le by assumption.
       rewrite Nat.sub_diag. cbn. now rewrite app_nil_r. Qed.
Lemma skipn_set (l : list X) k v : k <= length l -> skipn (S k) (firstn k l ++ v :: skipn (S k) l) = skipn (S k) l.
Proof. intros H. rewrite skipn_app, firstn_length_le by assumption.
       rewrite skipn_all2 by (rewrite firstn_length; lia).
       replace (S k - k) with 1 by lia. reflexivity. Qed.
Lemma nth_error_set (l : list X) k v : k <= length l -> nth_error (firstn k l ++ v :: skipn (S k) l) k = Some v.
Proof. intros H. rewrite nth_error_app2; rewrite firstn_length_le by assumption; [|lia]. now rewrite Nat.sub_diag. Qed.
Lemma length_set (l : list X) k v : k < length l -> length (firstn k l ++ v :: skipn (S k) l) = length l.
Proof. intros H. rewrite app_length, firstn_length_le by lia. cbn [length]. rewrite skipn_length. lia. Qed.
Lemma nth_error_set_other (l : list X) k v j : k < length l -> j <> k ->
  nth_error (firstn k l ++ v :: skipn (S k) l) j = nth_error l j.
Proof.
  intros H Hj. destruct (lt_eq_lt_dec j k) as [[H1|H1]|H1]; [|lia|].
  - rewrite nth_error_app1 by (rewrite firstn_length; lia). now apply nth_error_firstn.
  - rewrite nth_error_app2 by (rewrite firstn_length; lia). rewrite firstn_length_le by lia.
    destruct (j - k) as [|m] eqn:E; [lia|]. cbn [nth_error]. rewrite nth_error_skipn. f_equal. lia.
Qed.
End SetCoord.

Lemma valid_set es idx dim e e' c' : nth_error es dim = Some e -> valid (set_nth es dim e') idx -> c' < e ->
  valid es (set_coord idx dim c').
Proof.
  intros He Hv Hc. unfold set_nth in Hv. unfold set_coord.
  assert (Hlt : dim < length es) by (apply nth_error_Some; congruence).
  destruct (valid_split _ dim e' idx (nth_error_set es dim e' ltac:(lia)) Hv) as (c & Hc1 & Hc2 & Hi & Hv1 & Hv2).
  rewrite firstn_set in Hv1 by lia. rewrite skipn_set in Hv2 by lia.
  pose proof (valid_length _ _ Hv) as HL. rewrite length_set in HL by lia.
  rewrite (nth_error_split_at _ _ _ He). apply valid_app.
  - rewrite !firstn_length. lia.
  - cbn [valid]. tauto.
Qed.

(** [small es]: the two partial products formed by insert/erase at [dim] fit in 32 bits. *)
Definition fits32 (es : list nat) (dim : nat) : Prop :=
  (Z.of_nat (prod (firstn dim es)) < two32)%Z /\ (Z.of_nat (prod (skipn (S dim) es)) < two32)%Z.

Lemma insert_spec {A} (a : marray A) dim pos num val e : wf a -> nth_error (exts a) dim = Some e -> pos <= e ->
  fits32 (exts a) dim ->
  exists a', insert a dim pos num val = Ok a' /\ wf a' /\ exts a' = set_nth (exts a) dim (e + num) /\
  forall idx c, valid (exts a') idx -> nth_error idx dim = Some c ->
    at_idx a' idx = if Nat.ltb c pos then at_idx a idx
                    else if Nat.ltb c (pos + num) then Some val
                    else at_idx a (set_coord idx dim (c - num)).
Proof.
  intros Hwf He Hp [F1 F2]. unfold insert. rewrite He.
  destruct (Nat.ltb_spec e pos) as [|_]; [lia|]. rewrite !prod32_ok by assumption.
  assert (exists r, e = pos + r) as [r ->] by (exists (e - pos); lia).
  replace (pos + r - pos) with r by lia.
  set (I := prod (firstn dim (exts a))) in *. set (C := prod (skipn (S dim) (exts a))) in *.
  assert (Hlt : dim < length (exts a)) by (apply nth_error_Some; congruence).
  unfold wf in Hwf. rewrite (prod_split _ _ _ He) in Hwf. fold I in Hwf. fold C in Hwf.
  destruct (ins_loop_ok I (pos * C) (num * C) (r * C) val (flat a)) as (d & Hd & Hld & Hnth).
  { rewrite Hwf. nia. }
  rewrite Hd. cbn [obind]. eexists; split; [reflexivity|]. unfold wf. cbn [exts flat].
  assert (Hset : nth_error (set_nth (exts a) dim (pos + r + num)) dim = Some (pos + r + num)) by (apply nth_error_set; lia).
  split; [|split; [reflexivity|]].
  - rewrite (prod_split _ _ _ Hset). unfold set_nth. rewrite firstn_set, skipn_set by lia. fold I C. rewrite Hld. nia.
  - intros idx c Hv Hc.
    pose proof (valid_length _ _ Hv) as HL. unfold set_nth in HL. rewrite length_set in HL by lia.
    destruct (valid_split _ _ _ _ Hset Hv) as (c' & Hc' & Hlc & Hi & Hv1 & Hv2).
    assert (c' = c) by congruence; subst c'.
    unfold set_nth in Hv1, Hv2. rewrite firstn_set in Hv1 by lia. rewrite skipn_set in Hv2 by lia.
    pose proof (rowmajor_lt _ _ Hv1) as B1. pose proof (rowmajor_lt _ _ Hv2) as B2. fold I in B1. fold C in B2.
    set (x := rowmajor (firstn dim (exts a)) (firstn dim idx)) in *.
    set (y := rowmajor (skipn (S dim) (exts a)) (skipn (S dim) idx)) in *.
    unfold at_idx. cbn [exts flat].
    rewrite (rowmajor_split _ _ _ _ _ Hset) by (unfold set_nth; rewrite ?length_set; try lia; eassumption).
    unfold set_nth. rewrite firstn_set, skipn_set by lia. fold C x y.
    replace ((x * (pos + r + num) + c) * C + y) with (x * (pos * C + num * C + r * C) + (c * C + y)) by nia.
    rewrite Hnth by nia.
    replace (Nat.ltb (c * C + y) (pos * C)) with (Nat.ltb c pos)
      by (destruct (Nat.ltb_spec c pos), (Nat.ltb_spec (c * C + y) (pos * C)); trivial; nia).
    replace (Nat.ltb (c * C + y) (pos * C + num * C)) with (Nat.ltb c (pos + num))
      by (destruct (Nat.ltb_spec c (pos + num)), (Nat.ltb_spec (c * C + y) (pos * C + num * C)); trivial; nia).
    destruct (Nat.ltb_spec c pos) as [H1|H1]; [|destruct (Nat.ltb_spec c (pos + num)) as [H2|H2]; [reflexivity|]].
    + f_equal. rewrite (rowmajor_split _ _ _ idx c He) by (trivial; lia). fold C x y. nia.
    + f_equal. rewrite (rowmajor_split _ _ _ (set_coord idx dim (c - num)) (c - num) He);
        [|unfold set_coord; rewrite length_set; lia|apply nth_error_set; lia].
      unfold set_coord. rewrite firstn_set, skipn_set by lia. fold C x y. nia.
Qed.

Lemma erase_spec {A} (a : marray A) dim pos num e : wf a -> nth_error (exts a) dim = Some e -> pos < e -> pos + num <= e ->
  fits32 (exts a) dim ->
  exists a', erase a dim pos num = Ok a' /\ wf a' /\ exts a' = set_nth (exts a) dim (e - num) /\
  forall idx c, valid (exts a') idx -> nth_error idx dim = Some c ->
    at_idx a' idx = if Nat.ltb c pos then at_idx a idx else at_idx a (set_coord idx dim (c + num)).
Proof.
  intros Hwf He Hp Hpn [F1 F2]. unfold erase. rewrite He.
  destruct (Nat.ltb_spec pos e) as [_|]; [|lia]. destruct (Nat.leb_spec (pos + num) e) as [_|]; [|lia].
  cbn [andb negb]. rewrite !prod32_ok by assumption.
  assert (exists r, e = pos + num + r) as [r ->] by (exists (e - (pos + num)); lia).
  replace (pos + num + r - (pos + num)) with r by lia. replace (pos + num + r - num) with (pos + r) by lia.
  set (I := prod (firstn dim (exts a))) in *. set (C := prod (skipn (S dim) (exts a))) in *.
  assert (Hlt : dim < length (exts a)) by (apply nth_error_Some; congruence).
  unfold wf in Hwf. rewrite (prod_split _ _ _ He) in Hwf. fold I in Hwf. fold C in Hwf.
  destruct (era_loop_ok I (pos * C) (num * C) (r * C) (flat a)) as (d & Hd & Hld & Hnth).
  { rewrite Hwf. nia. }
  rewrite Hd. cbn [obind]. eexists; split; [reflexivity|]. unfold wf. cbn [exts flat].
  assert (Hset : nth_error (set_nth (exts a) dim (pos + r)) dim = Some (pos + r)) by (apply nth_error_set; lia).
  split; [|split; [reflexivity|]].
  - rewrite (prod_split _ _ _ Hset). unfold set_nth. rewrite firstn_set, skipn_set by lia. fold I C. rewrite Hld. nia.
  - intros idx c Hv Hc.
    pose proof (valid_length _ _ Hv) as HL. unfold set_nth in HL. rewrite length_set in HL by lia.
    destruct (valid_split _ _ _ _ Hset Hv) as (c' & Hc' & Hlc & Hi & Hv1 & Hv2).
    assert (c' = c) by congruence; subst c'.
    unfold set_nth in Hv1, Hv2. rewrite firstn_set in Hv1 by lia. rewrite skipn_set in Hv2 by lia.
    pose proof (rowmajor_lt _ _ Hv1) as B1. pose proof (rowmajor_lt _ _ Hv2) as B2. fold I in B1. fold C in B2.
    set (x := rowmajor (firstn dim (exts a)) (firstn dim idx)) in *.
    set (y := rowmajor (skipn (S dim) (exts a)) (skipn (S dim) idx)) in *.
    unfold at_idx. cbn [exts flat].
    rewrite (rowmajor_split _ _ _ _ _ Hset) by (unfold set_nth; rewrite ?length_set; try lia; eassumption).
    unfold set_nth. rewrite firstn_set, skipn_set by lia. fold C x y.
    replace ((x * (pos + r) + c) * C + y) with (x * (pos * C + r * C) + (c * C + y)) by nia.
    rewrite Hnth by nia.
    replace (Nat.ltb (c * C + y) (pos * C)) with (Nat.ltb c pos)
      by (destruct (Nat.ltb_spec c pos), (Nat.ltb_spec (c * C + y) (pos * C)); trivial; nia).
    destruct (Nat.ltb_spec c pos) as [H1|H1].
    + f_equal. rewrite (rowmajor_split _ _ _ idx c He) by (trivial; lia). fold C x y. nia.
    + f_equal. rewrite (rowmajor_split _ _ _ (set_coord idx dim (c + num)) (c + num) He);
        [|unfold set_coord; rewrite length_set; lia|apply nth_error_set; lia].
      unfold set_coord. rewrite firstn_set, skipn_set by lia. fold C x y. nia.
Qed.

Lemma nth_error_ext {A} : forall l1 l2 : list A, (forall n, nth_error l1 n = nth_error l2 n) -> l1 = l2.
Proof.
  induction l1 as [|x l1 IH]; intros [|y l2] H; trivial.
  - discriminate (H 0).
  - discriminate (H 0).
  - pose proof (H 0) as H0. cbn in H0. injection H0 as <-. f_equal. apply IH. intros n. exact (H (S n)).
Qed.

(** Arrays with the same extents and the same element at every tuple are equal. *)
Lemma marray_ext {A} (a b : marray A) : wf a -> wf b -> exts a = exts b ->
  (forall idx, valid (exts a) idx -> at_idx a idx = at_idx b idx) -> a = b.
Proof.
  destruct a as [ea fa], b as [eb fb]; unfold wf, at_idx; cbn. intros Ha Hb <- H. f_equal.
  apply nth_error_ext. intros n. destruct (le_lt_dec (length fa) n) as [Hn|Hn].
  - rewrite (proj2 (nth_error_None fa n)), (proj2 (nth_error_None fb n)) by lia. reflexivity.
  - rewrite <- (rowmajor_unrank ea n) by lia. apply H. apply unrank_valid. lia.
Qed.

Lemma set_nth_same {A} (l : list A) k e : nth_error l k = Some e -> set_nth l k e = l.
Proof. intros H. unfold set_nth. symmetry. now apply nth_error_split_at. Qed.
Lemma set_nth_twice {A} (l : list A) k u v : k < length l -> set_nth (set_nth l k u) k v = set_nth l k v.
Proof. intros H. unfold set_nth. rewrite firstn_set, skipn_set by lia. reflexivity. Qed.
Lemma set_coord_set_nth l k v : set_coord l k v = set_nth l k v.
Proof. reflexivity. Qed.

Lemma fits32_set es dim e : dim < length es -> fits32 es dim -> fits32 (set_nth es dim e) dim.
Proof. unfold fits32, set_nth. intros H. rewrite firstn_set, skipn_set by lia. tauto. Qed.

(** Erasing what was just inserted restores the array. *)
Lemma erase_insert {A} (a : marray A) dim pos num val e : wf a -> nth_error (exts a) dim = Some e -> pos <= e -> 0 < num ->
  fits32 (exts a) dim ->
  exists a', insert a dim pos num val = Ok a' /\ erase a' dim pos num = Ok a.
Proof.
  intros Hwf He Hp Hn F.
  assert (Hlt : dim < length (exts a)) by (apply nth_error_Some; congruence).
  destruct (insert_spec a dim pos num val e Hwf He Hp F) as (a' & Hi & Hwf' & Hex & Hat).
  exists a'. split; [exact Hi|].
  assert (He' : nth_error (exts a') dim = Some (e + num)) by (rewrite Hex; apply nth_error_set; lia).
  destruct (erase_spec a' dim pos num (e + num) Hwf' He') as (a'' & Hr & Hwf'' & Hex'' & Hat''); try lia.
  { rewrite Hex. now apply fits32_set. }
  rewrite Hr. f_equal.
  assert (Hexts : exts a'' = exts a).
  { rewrite Hex'', Hex, set_nth_twice by lia. replace (e + num - num) with e by lia. now apply set_nth_same. }
  apply marray_ext; trivial. intros idx Hv.
  assert (Hv0 : valid (exts a) idx) by now rewrite <- Hexts.
  destruct (valid_split _ _ _ _ He Hv0) as (c & Hc & Hce & Hidx & Hv1 & Hv2).
  rewrite (Hat'' idx c Hv Hc).
  pose proof (valid_length _ _ Hv0) as HL.
  assert (Hv' : forall c', c' < e + num -> valid (exts a') (set_coord idx dim c')).
  { intros c' Hc'. apply (valid_set _ _ _ (e + num) e); trivial.
    rewrite Hex, set_nth_twice, set_nth_same by (trivial; lia). exact Hv0. }
  destruct (Nat.ltb_spec c pos) as [H1|H1].
  - rewrite (Hat idx c); trivial.
    + destruct (Nat.ltb_spec c pos); [reflexivity|lia].
    + rewrite <- (set_nth_same idx dim c Hc). apply (Hv' c). lia.
  - rewrite (Hat (set_coord idx dim (c + num)) (c + num)).
    + destruct (Nat.ltb_spec (c + num) pos) as [|_]; [lia|].
      destruct (Nat.ltb_spec (c + num) (pos + num)) as [|_]; [lia|].
      change (set_coord (set_coord idx dim (c + num)) dim (c + num - num))
        with (set_nth (set_nth idx dim (c + num)) dim (c + num - num)). rewrite set_nth_twice by lia.
      replace (c + num - num) with c by lia. now rewrite set_nth_same.
    + apply Hv'. lia.
    + apply nth_error_set. lia.
Qed.

Fixpoint validb (es idx : list nat) : bool :=
  match es, idx with
  | [], [] => true
  | e :: es', i :: is' => Nat.ltb i e && validb es' is'
  | _, _ => false
  end.
Lemma validb_iff es : forall idx, validb es idx = true <-> valid es idx.
Proof.
  induction es as [|e es IH]; intros [|i idx]; cbn [validb valid]; try (split; congruence || tauto).
  rewrite andb_true_iff, Nat.ltb_lt, IH. tauto.
Qed.

Lemma resize_spec1 {A} (dflt : A) (a : marray A) dim s e : wf a -> nth_error (exts a) dim = Some e -> fits32 (exts a) dim ->
  exists a', resize dflt a dim s = Ok a' /\ wf a' /\ exts a' = set_nth (exts a) dim s /\
  forall idx c, valid (exts a') idx -> nth_error idx dim = Some c ->
    at_idx a' idx = if Nat.ltb c e then at_idx a idx else Some dflt.
Proof.
  intros Hwf He F. unfold resize. rewrite He.
  assert (Hlt : dim < length (exts a)) by (apply nth_error_Some; congruence).
  destruct (Nat.ltb_spec s e) as [H1|H1]; [|destruct (Nat.ltb_spec e s) as [H2|H2]].
  - destruct (erase_spec a dim s (e - s) e) as (a' & Hr & Hwf' & Hex & Hat); trivial; try lia.
    exists a'. replace (e - (e - s)) with s in Hex by lia. repeat split; trivial.
    intros idx c Hv Hc. rewrite (Hat idx c) by trivial.
    assert (c < s).
    { rewrite Hex in Hv. destruct (valid_split _ dim s _ (nth_error_set _ _ _ (Nat.lt_le_incl _ _ Hlt)) Hv) as (c' & Hc' & Hl & _).
      congruence. }
    destruct (Nat.ltb_spec c s), (Nat.ltb_spec c e); trivial; lia.
  - destruct (insert_spec a dim e (s - e) dflt e) as (a' & Hr & Hwf' & Hex & Hat); trivial; try lia.
    exists a'. replace (e + (s - e)) with s in Hex by lia. repeat split; trivial.
    intros idx c Hv Hc. rewrite (Hat idx c) by trivial.
    assert (c < s).
    { rewrite Hex in Hv. destruct (valid_split _ dim s _ (nth_error_set _ _ _ (Nat.lt_le_incl _ _ Hlt)) Hv) as (c' & Hc' & Hl & _).
      congruence. }
    destruct (Nat.ltb_spec c e); trivial. destruct (Nat.ltb_spec c (e + (s - e))); trivial; lia.
  - assert (s = e) by lia; subst s. exists a. rewrite set_nth_same by trivial. repeat split; trivial.
    intros idx c Hv Hc. destruct (valid_split _ _ _ _ He Hv) as (c' & Hc' & Hl & _).
    destruct (Nat.ltb_spec c e); trivial. assert (c' = c) by congruence. lia.
Qed.

(** Every partial product formed while the dimensions are resized one after the other fits in 32 bits. *)
Definition resize_fits (es ss : list nat) : Prop :=
  forall k, k < length es ->
    (Z.of_nat (prod (firstn k ss)) < two32)%Z /\ (Z.of_nat (prod (skipn (S k) es)) < two32)%Z.

Lemma skipn_cons_nth {A} (l : list A) k : k < length l -> exists x, nth_error l k = Some x /\ skipn k l = x :: skipn (S k) l.
Proof.
  revert k. induction l as [|y l IH]; intros [|k] H; cbn in *; try lia.
  - now exists y.
  - destruct (IH k) as (x & Hx & Hs); [lia|]. exists x. auto.
Qed.
Lemma firstn_snoc_nth {A} (l : list A) k x : nth_error l k = Some x -> firstn (S k) l = firstn k l ++ [x].
Proof. revert k. induction l as [|y l IH]; intros [|k] H; cbn in *; try discriminate.
  - congruence.
  - f_equal. now apply IH.
Qed.

Lemma resize_from_spec {A} (dflt : A) (a0 : marray A) ss : length ss = length (exts a0) -> resize_fits (exts a0) ss ->
  forall m k (a : marray A), m + k = length ss -> wf a ->
  exts a = firstn k ss ++ skipn k (exts a0) ->
  (forall idx, valid (exts a) idx -> at_idx a idx = if validb (exts a0) idx then at_idx a0 idx else Some dflt) ->
  exists a', resize_from dflt a k (skipn k ss) = Ok a' /\ wf a' /\ exts a' = ss /\
  forall idx, valid ss idx -> at_idx a' idx = if validb (exts a0) idx then at_idx a0 idx else Some dflt.
Proof.
  intros Hlen Hfit. induction m as [|m IH]; intros k a Hmk Hwf Hex Hat.
  - rewrite skipn_all2 by lia. cbn [resize_from]. exists a.
    rewrite firstn_all2, skipn_all2, app_nil_r in Hex by lia. repeat split; trivial. intros idx Hv. apply Hat. now rewrite Hex.
  - destruct (skipn_cons_nth ss k ltac:(lia)) as (s & Hs & Hsk). rewrite Hsk. cbn [resize_from].
    destruct (skipn_cons_nth (exts a0) k ltac:(lia)) as (e & He & Hek).
    assert (Hfl : length (firstn k ss) = k) by (rewrite firstn_length; lia).
    assert (Hea : nth_error (exts a) k = Some e).
    { rewrite Hex, nth_error_app2, Hfl, Nat.sub_diag, Hek by lia. reflexivity. }
    assert (Hf1 : firstn k (exts a) = firstn k ss).
    { rewrite Hex, firstn_app, Hfl, Nat.sub_diag, firstn_firstn, Nat.min_id. cbn. now rewrite app_nil_r. }
    assert (Hf2 : skipn (S k) (exts a) = skipn (S k) (exts a0)).
    { rewrite Hex, skipn_app, Hfl, skipn_all2 by lia. replace (S k - k) with 1 by lia. rewrite Hek. reflexivity. }
    destruct (resize_spec1 dflt a k s e Hwf Hea) as (a1 & Hr & Hwf1 & Hex1 & Hat1).
    { unfold fits32. rewrite Hf1, Hf2. apply Hfit. lia. }
    rewrite Hr. cbn [obind].
    assert (Hex1' : exts a1 = firstn (S k) ss ++ skipn (S k) (exts a0)).
    { rewrite Hex1. unfold set_nth. rewrite Hf1, Hf2, (firstn_snoc_nth _ _ _ Hs), <- app_assoc. reflexivity. }
    apply IH; trivial; try lia.
    intros idx Hv.
    assert (Hlt : k < length (exts a)) by (apply nth_error_Some; congruence).
    pose proof Hv as Hv'. rewrite Hex1 in Hv'.
    destruct (valid_split _ k s _ (nth_error_set _ _ _ (Nat.lt_le_incl _ _ Hlt)) Hv') as (c & Hc & Hcs & Hidx & Hv1 & Hv2).
    rewrite (Hat1 idx c Hv Hc).
    destruct (Nat.ltb_spec c e) as [Hce|Hce].
    + apply Hat. rewrite <- (set_nth_same idx k c Hc). change (set_nth idx k c) with (set_coord idx k c).
      eapply valid_set; eauto.
    + destruct (validb (exts a0) idx) eqn:Hvb; [|reflexivity].
      apply validb_iff in Hvb. destruct (valid_split _ _ _ _ He Hvb) as (c' & Hc' & Hl & _).
      assert (c' = c) by congruence. lia.
Qed.

Lemma resize_all_spec {A} (dflt : A) (a : marray A) ss : wf a -> length ss = length (exts a) -> resize_fits (exts a) ss ->
  exists a', resize_all dflt a ss = Ok a' /\ wf a' /\ exts a' = ss /\
  forall idx, valid ss idx -> at_idx a' idx = if validb (exts a) idx then at_idx a idx else Some dflt.
Proof.
  intros Hwf Hl Hf. unfold resize_all. rewrite Hl, Nat.eqb_refl.
  apply (resize_from_spec dflt a ss Hl Hf (length ss) 0 a); trivial; try lia.
  intros idx Hv. apply validb_iff in Hv. now rewrite Hv.
Qed.
Lemma resize_all_rank {A} (dflt : A) (a : marray A) ss : length ss <> length (exts a) -> resize_all dflt a ss = Throw LogicError.
Proof. intros H. unfold resize_all. destruct (Nat.eqb_spec (length ss) (length (exts a))); [contradiction|reflexivity]. Qed.

(** ** Wrap-around findings *)
Lemma prod32_65536 n : prod32 [Z.to_nat 65536; Z.to_nat 65536; n] = 0.
Proof. rewrite prod32_mod. cbn [prod]. replace (Z.of_nat _) with (Z.of_nat n * two32)%Z.
  - now rewrite Z.mod_mul.
  - unfold two32. rewrite !Nat2Z.inj_mul, !Z2Nat.id by lia. lia.
Qed.

Lemma insert_wrap {A} (a : marray A) num val : wf a -> exts a = [Z.to_nat 65536; Z.to_nat 65536; 1] ->
  insert a 2 0 num val = Ok (MArr [Z.to_nat 65536; Z.to_nat 65536; 1 + num] []).
Proof.
  intros Hwf He. unfold insert. rewrite He. cbn [nth_error].
  change (firstn 2 _) with [Z.to_nat 65536; Z.to_nat 65536].
  assert (H0 : prod32 [Z.to_nat 65536; Z.to_nat 65536] = 0) by reflexivity.
  rewrite H0. reflexivity.
Qed.

Lemma reshape_spec {A} (a : marray A) es : (Z.of_nat (prod es) < two32)%Z ->
  (length es = length (exts a) /\ prod es = length (flat a) /\ reshape a es = Ok (MArr es (flat a))) \/
  (~ (length es = length (exts a) /\ prod es = length (flat a)) /\ reshape a es = Throw LogicError).
Proof.
  intros Hb. unfold reshape. rewrite prod32_ok by assumption.
  destruct (Nat.eqb_spec (length es) (length (exts a))); [|right; split; [tauto|reflexivity]].
  destruct (Nat.eqb_spec (prod es) (length (flat a))); [left|right]; repeat split; trivial; tauto.
Qed.

Lemma reshape_wrap :
  let n := Z.to_nat 65536 in
  let a := MArr [0; 0] (@nil Z) in
  wf a /\ reshape a [n; n] = Ok (MArr [n; n] []) /\ ~ wf (MArr [n; n] (@nil Z)).
Proof.
  cbv zeta. split; [reflexivity|]. split; [reflexivity|].
  unfold wf; cbn [flat exts length prod]. lia.
Qed.
