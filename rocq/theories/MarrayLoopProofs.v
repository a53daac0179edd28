(** Proofs about the index odometers: sum(dim), sum_same_rank and applyOp. *)
From Coq Require Import List Arith ZArith Lia Bool.
From Coq Require Import ZifyBool ZifyNat.
From Verif Require Import Err MarrayModel MarraySpec MarrayProofs MarrayEditProofs.
Import ListNotations.

(** ** Little-endian (last dimension first) tuples *)
Fixpoint off_le (es idx : list nat) : nat :=
  match es, idx with e :: es', i :: is' => i + e * off_le es' is' | _, _ => 0 end.
Fixpoint inc_le (es idx : list nat) : list nat :=
  match es, idx with
  | e :: es', i :: is' => if Nat.ltb i (e - 1) then S i :: is' else 0 :: inc_le es' is'
  | _, _ => idx
  end.

Lemma valid_rev es idx : valid (rev es) (rev idx) <-> valid es idx.
Proof.
  destruct (Nat.eq_dec (length idx) (length es)) as [Hl|Hl].
  2:{ split; intros H; exfalso; apply valid_length in H; rewrite ?rev_length in H; lia. }
  revert idx Hl. induction es as [|e es IH]; intros [|i idx] Hl; cbn [length] in Hl; try lia; [tauto|].
  cbn [rev]. rewrite valid_app by (rewrite !rev_length; lia). rewrite IH by lia. cbn [valid]. tauto.
Qed.

Lemma off_le_rowmajor es : forall idx, length idx = length es -> rowmajor (rev es) (rev idx) = off_le es idx.
Proof.
  induction es as [|e es IH]; intros [|i idx] Hl; cbn [length] in Hl; try lia; [reflexivity|].
  cbn [rev off_le]. rewrite rowmajor_app by (rewrite !rev_length; lia). rewrite IH by lia.
  cbn [rowmajor prod]. lia.
Qed.

Lemma off_le_lt es idx : valid es idx -> off_le es idx < prod es.
Proof.
  intros Hv. rewrite <- off_le_rowmajor by now apply valid_length. rewrite <- (prod_rev es).
  apply rowmajor_lt. now apply valid_rev.
Qed.
Lemma off_le_inj es i1 i2 : valid es i1 -> valid es i2 -> off_le es i1 = off_le es i2 -> i1 = i2.
Proof.
  intros H1 H2 Heq. rewrite <- (rev_involutive i1), <- (rev_involutive i2). f_equal.
  apply (rowmajor_inj (rev es)); try now apply valid_rev.
  rewrite !off_le_rowmajor by now apply valid_length. exact Heq.
Qed.

Lemma inc_le_ok es : forall idx, valid es idx -> S (off_le es idx) < prod es ->
  valid es (inc_le es idx) /\ off_le es (inc_le es idx) = S (off_le es idx).
Proof.
  induction es as [|e es IH]; intros [|i idx] Hv Hlt; cbn [valid] in Hv; try tauto; [cbn in Hlt; lia|].
  destruct Hv as [Hi Hv]. cbn [inc_le off_le prod] in *.
  destruct (Nat.ltb_spec i (e - 1)) as [H|H]; cbn [valid off_le].
  - split; [split; [lia|assumption]|lia].
  - pose proof (off_le_lt _ _ Hv) as Hb.
    assert (S (off_le es idx) < prod es) by nia.
    destruct (IH idx Hv) as [Ha Hc]; [assumption|]. rewrite Hc. split; [split; [lia|assumption]|nia].
Qed.

Lemma inc_le_length es : forall idx, length (inc_le es idx) = length idx.
Proof. induction es as [|e es IH]; intros [|i idx]; cbn [inc_le]; trivial. destruct (Nat.ltb i (e - 1)); cbn [length]; [reflexivity|]. now rewrite IH. Qed.

(** The tuple of the element at flat position [t]. *)
Definition unle (es : list nat) (t : nat) : list nat := rev (unrank (rev es) t).
Lemma unle_valid es t : t < prod es -> valid es (unle es t).
Proof. intros H. rewrite <- (rev_involutive es) at 1. apply valid_rev. apply unrank_valid. now rewrite prod_rev. Qed.
Lemma unle_length es t : length (unle es t) = length es.
Proof. unfold unle. now rewrite rev_length, unrank_length, rev_length. Qed.
Lemma off_unle es t : t < prod es -> off_le es (unle es t) = t.
Proof.
  intros H. rewrite <- off_le_rowmajor by apply unle_length. unfold unle. rewrite rev_involutive.
  apply rowmajor_unrank. now rewrite prod_rev.
Qed.
Lemma unle_uniq es idx : valid es idx -> unle es (off_le es idx) = idx.
Proof. intros H. apply (off_le_inj es); trivial; [apply unle_valid|apply off_unle]; now apply off_le_lt. Qed.

Lemma unle_0 es : prod es <> 0 -> unle es 0 = repeat 0 (length es).
Proof.
  intros H. rewrite <- (unle_uniq es (repeat 0 (length es))).
  - f_equal. clear H. induction es as [|e es IH]; cbn; [reflexivity|]. rewrite <- IH. lia.
  - revert H. induction es as [|e es IH]; cbn [prod valid length repeat]; [trivial|]. intros H. split; [nia|apply IH; nia].
Qed.

Lemma unle_S es t : S t < prod es -> unle es (S t) = inc_le es (unle es t).
Proof.
  intros H. destruct (inc_le_ok es (unle es t)) as [Hv Ho].
  - apply unle_valid. lia.
  - rewrite off_unle by lia. exact H.
  - rewrite off_unle in Ho by lia. rewrite <- Ho. now apply unle_uniq.
Qed.

(** ** sum(dim) *)
Lemma odo_sum_none res : forall ind dummy, length ind = length res -> odo_sum res None ind dummy = (inc_le res ind, dummy).
Proof.
  induction res as [|e res IH]; intros [|i ind] dummy Hl; cbn [length] in Hl; try lia; [reflexivity|].
  cbn [odo_sum inc_le]. destruct (Nat.ltb i (e - 1)); [reflexivity|]. rewrite IH by lia. reflexivity.
Qed.

Lemma odo_sum_some res : forall d ind dummy, d < length res -> S (length ind) = length res ->
  exists ind' dummy', odo_sum res (Some d) ind dummy = (ind', dummy') /\ length ind' = length ind /\
  ins_coord ind' d dummy' = inc_le res (ins_coord ind d dummy).
Proof.
  induction res as [|e res IH]; intros d ind dummy Hd Hl; cbn [length] in *; [lia|].
  destruct d as [|d].
  - cbn [odo_sum]. unfold ins_coord. cbn [firstn skipn app inc_le].
    destruct (Nat.ltb dummy (e - 1)).
    + exists ind, (S dummy). auto.
    + rewrite odo_sum_none by lia. exists (inc_le res ind), 0. rewrite inc_le_length. auto.
  - destruct ind as [|i ind]; cbn [length] in Hl; [lia|].
    cbn [odo_sum]. unfold ins_coord. cbn [firstn skipn app inc_le].
    destruct (Nat.ltb i (e - 1)).
    + exists (S i :: ind), dummy. cbn [length firstn skipn app]. auto.
    + destruct (IH d ind dummy) as (ind' & dm & Ho & Hl' & Hi); try lia.
      rewrite Ho. exists (0 :: ind'), dm. cbn [length firstn skipn app]. split; [reflexivity|]. split; [lia|].
      f_equal. exact Hi.
Qed.

Lemma ins_coord_inj d : forall i1 i2 c1 c2, d <= length i1 -> length i1 = length i2 ->
  ins_coord i1 d c1 = ins_coord i2 d c2 -> i1 = i2 /\ c1 = c2.
Proof.
  unfold ins_coord. induction d as [|d IH]; intros i1 i2 c1 c2 Hd Hl H; cbn in H.
  - now injection H as -> ->.
  - destruct i1 as [|x i1], i2 as [|y i2]; cbn in *; try lia.
    injection H as -> H. destruct (IH i1 i2 c1 c2) as [-> ->]; auto; lia.
Qed.

Lemma ins_coord_length l d c : length (ins_coord l d c) = S (length l).
Proof. unfold ins_coord. rewrite app_length. cbn [length]. rewrite firstn_length, skipn_length. lia. Qed.

Lemma ins_drop (l : list nat) d : d < length l -> ins_coord (drop_nth l d) d (nth d l 0) = l.
Proof.
  unfold ins_coord, drop_nth. revert d. induction l as [|x l IH]; intros [|d] H; cbn in *; try lia; [reflexivity|].
  f_equal. apply IH. lia.
Qed.
Lemma drop_ins (l : list nat) d c : d <= length l -> drop_nth (ins_coord l d c) d = l.
Proof.
  unfold ins_coord, drop_nth. revert d. induction l as [|x l IH]; intros [|d] H; cbn in *; try lia; trivial.
  f_equal. apply IH. lia.
Qed.
Lemma drop_nth_length {X} (l : list X) d : d < length l -> length (drop_nth l d) = length l - 1.
Proof. intros H. unfold drop_nth. rewrite app_length, firstn_length, skipn_length. lia. Qed.

Lemma valid_ins es d e idx c : nth_error es d = Some e -> length idx = length es - 1 ->
  (valid es (ins_coord idx d c) <-> valid (drop_nth es d) idx /\ c < e).
Proof.
  unfold ins_coord, drop_nth. revert d idx. induction es as [|x es IH]; intros [|d] idx He Hl; cbn in He; try discriminate.
  - injection He as ->. cbn [firstn skipn app valid]. tauto.
  - destruct idx as [|i idx].
    + cbn in Hl. assert (d < length es) by (apply nth_error_Some; congruence). lia.
    + cbn [firstn skipn app valid] in *. cbn [length] in Hl. rewrite IH; trivial; [tauto|].
      assert (d < length es) by (apply nth_error_Some; congruence). lia.
Qed.

(** Adding a list of values at given positions, the common core of both sum loops. *)
Fixpoint acc_loop (pos : nat -> nat) (t : nat) (elems s : list Z) : outcome (list Z) :=
  match elems with
  | [] => Ok s
  | x :: elems' => obind (add_at s (pos t) x) (fun s' => acc_loop pos (S t) elems' s')
  end.

Lemma nth_set_nth {X} (l : list X) k v j dd : k < length l -> nth j (set_nth l k v) dd = if Nat.eqb j k then v else nth j l dd.
Proof.
  intros Hk. unfold set_nth. destruct (Nat.eqb_spec j k) as [->|Hj].
  - rewrite (nth_error_nth _ _ _ (nth_error_set l k v (Nat.lt_le_incl _ _ Hk))). reflexivity.
  - destruct (le_lt_dec (length l) j) as [Hge|Hlt].
    + rewrite !nth_overflow; trivial. rewrite length_set; lia.
    + pose proof (nth_error_set_other l k v j Hk Hj) as H.
      destruct (nth_error l j) as [y|] eqn:E; [|apply nth_error_None in E; lia].
      rewrite (nth_error_nth _ _ _ H). symmetry. now apply nth_error_nth.
Qed.

Lemma sum_upto_shift n : forall f, sum_upto (S n) f = (f 0%nat + sum_upto n (fun j => f (S j)))%Z.
Proof. induction n as [|n IH]; intros f; [cbn; lia|]. change (sum_upto (S (S n)) f) with (sum_upto (S n) f + f (S n))%Z.
  rewrite IH. cbn [sum_upto]. lia. Qed.
Lemma sum_upto_ext n : forall f g, (forall j, j < n -> f j = g j) -> sum_upto n f = sum_upto n g.
Proof. induction n as [|n IH]; intros f g H; cbn [sum_upto]; [reflexivity|]. rewrite (IH f g), H; auto. Qed.
Lemma sum_upto_app m : forall n f, sum_upto (n + m) f = (sum_upto n f + sum_upto m (fun j => f (n + j)%nat))%Z.
Proof. induction m as [|m IH]; intros n f; cbn [sum_upto]. - rewrite Nat.add_0_r. lia.
  - rewrite Nat.add_succ_r. cbn [sum_upto]. rewrite IH. lia. Qed.
Lemma sum_upto_mul n m : forall f, sum_upto (n * m) f = sum_upto n (fun i => sum_upto m (fun j => f (i * m + j))).
Proof. induction n as [|n IH]; intros f; cbn [sum_upto Nat.mul]; [reflexivity|].
  replace (m + n * m) with (n * m + m) by lia. rewrite sum_upto_app, IH. reflexivity. Qed.
Lemma sum_upto_zero n f : (forall j, j < n -> f j = 0%Z) -> sum_upto n f = 0%Z.
Proof. induction n as [|n IH]; intros H; cbn [sum_upto]; [reflexivity|]. rewrite IH, H; auto. Qed.
Lemma sum_upto_single n k f : k < n -> (forall j, j < n -> j <> k -> f j = 0%Z) -> sum_upto n f = f k.
Proof.
  induction n as [|n IH]; intros Hk H; [lia|]. cbn [sum_upto].
  destruct (Nat.eq_dec k n) as [->|Hne].
  - rewrite sum_upto_zero; [lia|]. intros j Hj. apply H; lia.
  - rewrite IH by (intros; apply H || lia; lia). rewrite (H n); lia.
Qed.

Lemma acc_loop_spec pos : forall elems t s, (forall j, j < length elems -> pos (t + j) < length s) ->
  exists s', acc_loop pos t elems s = Ok s' /\ length s' = length s /\
  forall k, k < length s -> nth k s' 0%Z =
    (nth k s 0 + sum_upto (length elems) (fun j => if Nat.eqb (pos (t + j)%nat) k then nth j elems 0 else 0))%Z.
Proof.
  induction elems as [|x elems IH]; intros t s Hp.
  - exists s. cbn. repeat split; intros; lia.
  - cbn [acc_loop]. unfold add_at.
    assert (Hpt : pos t < length s) by (specialize (Hp 0); cbn in Hp; rewrite Nat.add_0_r in Hp; lia).
    destruct (nth_error s (pos t)) as [v|] eqn:Ev; [|apply nth_error_None in Ev; lia].
    cbn [obind].
    assert (Hls : length (set_nth s (pos t) (v + x)%Z) = length s) by (unfold set_nth; apply length_set; lia).
    destruct (IH (S t) (set_nth s (pos t) (v + x)%Z)) as (s' & Ha & Hl & Hn).
    { intros j Hj. rewrite Hls. replace (S t + j) with (t + S j) by lia. apply Hp. cbn. lia. }
    exists s'. split; [exact Ha|]. split; [lia|].
    intros k Hk. rewrite Hn by lia. rewrite nth_set_nth by lia.
    cbn [length]. rewrite sum_upto_shift. cbn [nth]. rewrite Nat.add_0_r.
    rewrite (sum_upto_ext _ (fun j => if Nat.eqb (pos (t + S j)%nat) k then nth j elems 0%Z else 0%Z)
                            (fun j => if Nat.eqb (pos (S t + j)%nat) k then nth j elems 0%Z else 0%Z)).
    2:{ intros j _. replace (t + S j) with (S t + j) by lia. reflexivity. }
    rewrite (Nat.eqb_sym (pos t) k).
    destruct (Nat.eqb_spec k (pos t)) as [->|Hne].
    + rewrite (nth_error_nth _ _ _ Ev). lia.
    + lia.
Qed.

(** Flat position of the result cell that the element at position [u] is added to. *)
Definition proj_pos (res : list nat) (d : nat) (u : nat) : nat :=
  off_le (drop_nth res d) (drop_nth (unle res u) d).

Definition stride_ok (es : list nat) : Prop := (Z.of_nat (prod (tl es)) < two31)%Z /\ (Z.of_nat (prod es) <= two64)%Z.

Lemma sum_loop_acc res d : d < length res -> 1 < length res -> stride_ok (rev (drop_nth res d)) ->
  forall elems t s ind dummy,
  t + length elems = prod res -> S (length ind) = length res ->
  (elems <> [] -> ins_coord ind d dummy = unle res t) ->
  sum_loop res (drop_nth res d) d elems s ind dummy = acc_loop (proj_pos res d) t elems s.
Proof.
  intros Hd Hr [S1 S2]. induction elems as [|x elems IH]; intros t s ind dummy Ht Hl Hu; [reflexivity|].
  cbn [sum_loop acc_loop]. cbn [length] in Ht.
  destruct (nth_error res d) as [e|] eqn:He; [|apply nth_error_None in He; lia].
  specialize (Hu ltac:(discriminate)).
  assert (Hvf : valid res (ins_coord ind d dummy)) by (rewrite Hu; apply unle_valid; lia).
  assert (Hvi : valid (drop_nth res d) ind) by (apply (valid_ins res d e) in Hvf; [tauto|trivial|lia]).
  rewrite container_offset_ok; trivial.
  2:{ now apply valid_rev. }
  2:{ intros Hn. apply (f_equal (@length nat)) in Hn. rewrite rev_length, drop_nth_length in Hn by lia. cbn in Hn. lia. }
  cbn [obind]. rewrite Nat2Z.id. rewrite off_le_rowmajor by (rewrite drop_nth_length; lia).
  assert (Hpos : off_le (drop_nth res d) ind = proj_pos res d t).
  { unfold proj_pos. rewrite <- Hu, drop_ins by lia. reflexivity. }
  rewrite Hpos. destruct (add_at s (proj_pos res d t) x) as [s'| |]; cbn [obind]; trivial.
  destruct (odo_sum_some res d ind dummy Hd Hl) as (ind' & dm & Ho & Hl' & Hi).
  rewrite Ho. apply IH; try lia.
  intros Hne. rewrite Hi, Hu, unle_S; trivial.
  destruct elems; [congruence|]. cbn [length] in Ht. lia.
Qed.

Lemma odo_same_none res : forall ind dummy, length ind = length res -> odo_same res None ind dummy = (inc_le res ind, dummy).
Proof.
  induction res as [|e res IH]; intros [|i ind] dummy Hl; cbn [length] in Hl; try lia; [reflexivity|].
  cbn [odo_same inc_le]. destruct (Nat.ltb i (e - 1)); [reflexivity|]. rewrite IH by lia. reflexivity.
Qed.

Lemma odo_same_sum res : forall d ind dummy, d < length res -> S (length ind) = length res ->
  odo_same res (Some d) (ins_coord ind d 0) dummy =
  (let (ind', dm) := odo_sum res (Some d) ind dummy in (ins_coord ind' d 0, dm)).
Proof.
  induction res as [|e res IH]; intros d ind dummy Hd Hl; cbn [length] in *; [lia|].
  destruct d as [|d].
  - unfold ins_coord. cbn [firstn skipn app odo_same odo_sum].
    destruct (Nat.ltb dummy (e - 1)); [reflexivity|].
    rewrite odo_same_none, odo_sum_none by lia. reflexivity.
  - destruct ind as [|i ind]; cbn [length] in Hl; [lia|].
    change (ins_coord (i :: ind) (S d) 0) with (i :: ins_coord ind d 0). cbn [odo_same odo_sum].
    destruct (Nat.ltb i (e - 1)); [reflexivity|]. rewrite IH by lia.
    destruct (odo_sum res (Some d) ind dummy) as [r dm]. reflexivity.
Qed.

Lemma off_le_set1 res : forall d ind, d < length res -> S (length ind) = length res ->
  off_le (set_nth res d 1) (ins_coord ind d 0) = off_le (drop_nth res d) ind.
Proof.
  unfold set_nth, ins_coord, drop_nth. induction res as [|e res IH]; intros [|d] ind Hd Hl; cbn [length] in *; try lia.
  - cbn [firstn skipn app off_le]. lia.
  - destruct ind as [|i ind]; cbn [length] in Hl; [lia|]. cbn [firstn skipn app off_le] in *.
    rewrite IH by lia. reflexivity.
Qed.
Lemma valid_set1 res : forall d ind, d < length res -> S (length ind) = length res ->
  (valid (set_nth res d 1) (ins_coord ind d 0) <-> valid (drop_nth res d) ind).
Proof.
  unfold set_nth, ins_coord, drop_nth. induction res as [|e res IH]; intros [|d] ind Hd Hl; cbn [length] in *; try lia.
  - cbn [firstn skipn app valid]. intuition lia.
  - destruct ind as [|i ind]; cbn [length] in Hl; [lia|]. cbn [firstn skipn app valid] in *.
    rewrite IH by lia. reflexivity.
Qed.

Lemma same_loop_acc res d : d < length res -> stride_ok (rev (set_nth res d 1)) ->
  forall elems t s ind dummy,
  t + length elems = prod res -> S (length ind) = length res ->
  (elems <> [] -> ins_coord ind d dummy = unle res t) ->
  same_loop res (set_nth res d 1) d elems s (ins_coord ind d 0) dummy = acc_loop (proj_pos res d) t elems s.
Proof.
  intros Hd [S1 S2]. induction elems as [|x elems IH]; intros t s ind dummy Ht Hl Hu; [reflexivity|].
  cbn [same_loop acc_loop]. cbn [length] in Ht.
  destruct (nth_error res d) as [e|] eqn:He; [|apply nth_error_None in He; lia].
  specialize (Hu ltac:(discriminate)).
  assert (Hvf : valid res (ins_coord ind d dummy)) by (rewrite Hu; apply unle_valid; lia).
  assert (Hvi : valid (drop_nth res d) ind) by (apply (valid_ins res d e) in Hvf; [tauto|trivial|lia]).
  rewrite container_offset_ok; trivial.
  2:{ apply valid_rev. now apply valid_set1. }
  2:{ intros Hn. apply (f_equal (@length nat)) in Hn. unfold set_nth in Hn. rewrite rev_length, length_set in Hn by lia. cbn in Hn. lia. }
  cbn [obind]. rewrite Nat2Z.id. rewrite off_le_rowmajor by (unfold set_nth; rewrite ins_coord_length, length_set; lia).
  assert (Hpos : off_le (set_nth res d 1) (ins_coord ind d 0) = proj_pos res d t).
  { rewrite off_le_set1 by lia. unfold proj_pos. rewrite <- Hu, drop_ins by lia. reflexivity. }
  rewrite Hpos. destruct (add_at s (proj_pos res d t) x) as [s'| |]; cbn [obind]; trivial.
  rewrite odo_same_sum by lia.
  destruct (odo_sum_some res d ind dummy Hd Hl) as (ind' & dm & Ho & Hl' & Hi).
  rewrite Ho. apply IH; try lia.
  intros Hne. rewrite Hi, Hu, unle_S; trivial.
  destruct elems; [congruence|]. cbn [length] in Ht. lia.
Qed.

(** ** From reversed lists back to index tuples *)
Lemma rev_set_nth {X} (l : list X) k v : k < length l -> rev (set_nth l k v) = set_nth (rev l) (length l - 1 - k) v.
Proof.
  intros Hk. apply nth_error_ext. intros n.
  assert (Hl1 : length (set_nth l k v) = length l) by (unfold set_nth; now apply length_set).
  destruct (le_lt_dec (length l) n) as [Hn|Hn].
  - rewrite (proj2 (nth_error_None _ _)) by (rewrite rev_length; lia).
    rewrite (proj2 (nth_error_None _ _)); trivial. unfold set_nth. rewrite length_set; rewrite rev_length; lia.
  - assert (Hrev : forall (z : list X), n < length z -> nth_error (rev z) n = nth_error z (length z - S n)).
    { intros z Hz. destruct z as [|x0 z']; [cbn in Hz; lia|]. set (z := x0 :: z') in *.
      rewrite (nth_error_nth' _ x0) by (rewrite rev_length; lia). rewrite rev_nth by lia.
      symmetry. apply nth_error_nth'. lia. }
    rewrite Hrev by lia. rewrite Hl1.
    destruct (Nat.eq_dec n (length l - 1 - k)) as [->|Hne].
    + unfold set_nth. rewrite (nth_error_set (rev l)) by (rewrite rev_length; lia).
      replace (length l - S (length l - 1 - k)) with k by lia. now rewrite nth_error_set by lia.
    + unfold set_nth. rewrite (nth_error_set_other (rev l)) by (rewrite ?rev_length; lia).
      rewrite nth_error_set_other by lia. rewrite Hrev by lia. reflexivity.
Qed.

Lemma rev_ins_coord : forall l k c, k <= length l -> rev (ins_coord l k c) = ins_coord (rev l) (length l - k) c.
Proof.
  intros l k c Hk. unfold ins_coord. rewrite rev_app_distr. cbn [rev].
  rewrite firstn_rev, skipn_rev. rewrite <- app_assoc. cbn [app].
  replace (length l - (length l - k)) with k by lia. reflexivity.
Qed.
Lemma rev_drop_nth (l : list nat) k : k < length l -> rev (drop_nth l k) = drop_nth (rev l) (length l - 1 - k).
Proof.
  intros Hk. unfold drop_nth. rewrite rev_app_distr, firstn_rev, skipn_rev.
  replace (length l - (length l - 1 - k)) with (S k) by lia.
  replace (length l - S (length l - 1 - k)) with k by lia. reflexivity.
Qed.

(** Position of a tuple with one coordinate inserted. *)
Lemma rowmajor_ins es dim e idx c : nth_error es dim = Some e -> length idx = length es - 1 ->
  rowmajor es (ins_coord idx dim c) =
  (rowmajor (firstn dim es) (firstn dim idx) * e + c) * prod (skipn (S dim) es) + rowmajor (skipn (S dim) es) (skipn dim idx).
Proof.
  intros He Hl. assert (Hd : dim < length es) by (apply nth_error_Some; congruence).
  rewrite (nth_error_split_at _ _ _ He) at 1. unfold ins_coord.
  rewrite rowmajor_app by (rewrite !firstn_length; lia). cbn [rowmajor prod]. lia.
Qed.
Lemma rowmajor_drop es dim idx : dim < length es -> length idx = length es - 1 ->
  rowmajor (drop_nth es dim) idx =
  rowmajor (firstn dim es) (firstn dim idx) * prod (skipn (S dim) es) + rowmajor (skipn (S dim) es) (skipn dim idx).
Proof.
  intros Hd Hl. unfold drop_nth. rewrite <- (firstn_skipn dim idx) at 1.
  rewrite rowmajor_app by (rewrite !firstn_length; lia). reflexivity.
Qed.

(** The element at position (x*e+c)*C+y goes to the result cell x*C+y. *)
Lemma proj_pos_block es dim e x c y : nth_error es dim = Some e ->
  x < prod (firstn dim es) -> c < e -> y < prod (skipn (S dim) es) ->
  proj_pos (rev es) (length es - 1 - dim) ((x * e + c) * prod (skipn (S dim) es) + y) = x * prod (skipn (S dim) es) + y.
Proof.
  intros He Hx Hc Hy. assert (Hd : dim < length es) by (apply nth_error_Some; congruence).
  set (idx := unrank (firstn dim es) x ++ unrank (skipn (S dim) es) y).
  assert (Hl1 : length (unrank (firstn dim es) x) = dim) by (rewrite unrank_length, firstn_length; lia).
  assert (Hli : length idx = length es - 1).
  { unfold idx. rewrite app_length, !unrank_length, firstn_length, skipn_length. lia. }
  assert (Hf : firstn dim idx = unrank (firstn dim es) x).
  { unfold idx. rewrite firstn_app, Hl1, Nat.sub_diag. cbn. rewrite app_nil_r. apply firstn_all2. lia. }
  assert (Hs : skipn dim idx = unrank (skipn (S dim) es) y).
  { unfold idx. rewrite skipn_app, Hl1, Nat.sub_diag, skipn_all2 by lia. reflexivity. }
  assert (Hvd : valid (drop_nth es dim) idx).
  { unfold drop_nth, idx. apply valid_app; [rewrite unrank_length; reflexivity|]. split; apply unrank_valid; assumption. }
  assert (Hv : valid es (ins_coord idx dim c)) by (apply (valid_ins es dim e); auto).
  assert (Hu : (x * e + c) * prod (skipn (S dim) es) + y = off_le (rev es) (rev (ins_coord idx dim c))).
  { rewrite <- off_le_rowmajor by (rewrite !rev_length, ins_coord_length; lia). rewrite !rev_involutive.
    rewrite (rowmajor_ins _ _ _ _ _ He) by lia. rewrite Hf, Hs, !rowmajor_unrank by assumption. reflexivity. }
  rewrite Hu. unfold proj_pos. rewrite unle_uniq by now apply valid_rev.
  rewrite rev_ins_coord by lia. rewrite Hli. rewrite drop_ins by (rewrite rev_length; lia).
  rewrite <- rev_drop_nth by lia. rewrite <- off_le_rowmajor by (rewrite !rev_length, drop_nth_length; lia).
  rewrite !rev_involutive, rowmajor_drop by lia. now rewrite Hf, Hs, !rowmajor_unrank by assumption.
Qed.

(** The list of sums computed by both loops. *)
Lemma acc_sums (a : marray Z) dim e : wf a -> nth_error (exts a) dim = Some e ->
  exists s, acc_loop (proj_pos (rev (exts a)) (length (exts a) - 1 - dim)) 0 (flat a)
              (repeat 0%Z (prod (drop_nth (exts a) dim))) = Ok s /\
    length s = prod (drop_nth (exts a) dim) /\
    forall idx, valid (drop_nth (exts a) dim) idx ->
      nth_error s (rowmajor (drop_nth (exts a) dim) idx) =
      Some (sum_upto e (fun c => nth (rowmajor (exts a) (ins_coord idx dim c)) (flat a) 0%Z)).
Proof.
  intros Hwf He. set (es := exts a) in *.
  assert (Hd : dim < length es) by (apply nth_error_Some; congruence).
  set (I := prod (firstn dim es)). set (C := prod (skipn (S dim) es)).
  assert (HP : prod es = I * e * C) by apply (prod_split _ _ _ He).
  assert (HD : prod (drop_nth es dim) = I * C) by (unfold drop_nth; now rewrite prod_app).
  assert (Hdec : forall u, u < prod es -> exists x c y, x < I /\ c < e /\ y < C /\ u = (x * e + c) * C + y).
  { intros u Hu. rewrite HP in Hu. assert (C <> 0) by nia. assert (e <> 0) by nia.
    exists (u / C / e), ((u / C) mod e), (u mod C).
    repeat split.
    - rewrite Nat.div_div by lia. apply Nat.div_lt_upper_bound; nia.
    - now apply Nat.mod_upper_bound.
    - now apply Nat.mod_upper_bound.
    - rewrite (Nat.div_mod u C) at 1 by lia. rewrite (Nat.div_mod (u / C) e) at 1 by lia. nia. }
  destruct (acc_loop_spec (proj_pos (rev es) (length es - 1 - dim)) (flat a) 0 (repeat 0%Z (prod (drop_nth es dim))))
    as (s & Hs & Hls & Hn).
  { intros j Hj. rewrite repeat_length, HD. cbn [Nat.add]. rewrite Hwf in Hj. fold es in Hj.
    destruct (Hdec j Hj) as (x & c & y & Hx & Hc & Hy & ->).
    unfold C. rewrite (proj_pos_block es dim e x c y) by assumption. fold C. nia. }
  exists s. rewrite repeat_length in *. split; [exact Hs|]. split; [exact Hls|].
  intros idx Hv.
  pose proof (valid_length _ _ Hv) as Hli. rewrite drop_nth_length in Hli by lia.
  pose proof (rowmajor_lt _ _ Hv) as Hb.
  rewrite (nth_error_nth' s 0%Z) by lia. f_equal.
  rewrite Hn by lia. rewrite nth_repeat. rewrite Z.add_0_l.
  unfold wf in Hwf. fold es in Hwf. rewrite Hwf, HP.
  unfold drop_nth in Hv. rewrite <- (firstn_skipn dim idx) in Hv.
  apply valid_app in Hv; [|rewrite !firstn_length; lia]. destruct Hv as [Hv1 Hv2].
  apply rowmajor_lt in Hv1. apply rowmajor_lt in Hv2. fold I in Hv1. fold C in Hv2.
  rewrite rowmajor_drop by lia. fold C.
  set (x0 := rowmajor (firstn dim es) (firstn dim idx)) in *. set (y0 := rowmajor (skipn (S dim) es) (skipn dim idx)) in *.
  rewrite sum_upto_mul. 
  rewrite (sum_upto_ext (I * e) _ (fun i => if Nat.eqb (i / e) x0 then nth (i * C + y0) (flat a) 0%Z else 0%Z)).
  - rewrite sum_upto_mul. rewrite (sum_upto_single I x0); trivial.
    + apply sum_upto_ext. intros c Hc. rewrite Nat.div_add_l by lia. rewrite Nat.div_small, Nat.add_0_r, Nat.eqb_refl by lia.
      f_equal. unfold es. rewrite (rowmajor_ins (exts a) dim e idx c He) by (fold es; lia). reflexivity.
    + intros x Hx Hne. apply sum_upto_zero. intros c Hc. rewrite Nat.div_add_l by lia.
      rewrite Nat.div_small, Nat.add_0_r by lia. destruct (Nat.eqb_spec x x0); [contradiction|reflexivity].
  - intros i Hi. assert (e <> 0) by nia.
    assert (Hix : i / e < I) by (apply Nat.div_lt_upper_bound; nia).
    pose proof (Nat.mod_upper_bound i e ltac:(lia)) as Hic.
    assert (Hblk : forall y, y < C -> proj_pos (rev es) (length es - 1 - dim) (i * C + y) = i / e * C + y).
    { intros y Hy. rewrite (Nat.div_mod i e) at 1 by lia. rewrite (Nat.mul_comm e).
      apply (proj_pos_block es dim e (i / e) (i mod e) y); assumption. }
    destruct (Nat.eqb_spec (i / e) x0) as [Hx|Hx].
    + rewrite (sum_upto_single C y0); trivial.
      * cbn [Nat.add]. rewrite Hblk by assumption. rewrite Hx, Nat.eqb_refl. reflexivity.
      * intros y Hy Hne. cbn [Nat.add]. rewrite Hblk by assumption.
        destruct (Nat.eqb_spec (i / e * C + y) (x0 * C + y0)); [|reflexivity]. nia.
    + apply sum_upto_zero. intros y Hy. cbn [Nat.add]. rewrite Hblk by assumption.
      destruct (Nat.eqb_spec (i / e * C + y) (x0 * C + y0)); [|reflexivity]. exfalso. apply Hx. nia.
Qed.
