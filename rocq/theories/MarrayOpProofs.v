(** Final statements about sum(dim), sum_same_rank and applyOp. *)
From Coq Require Import List Arith ZArith Lia Bool.
From Coq Require Import ZifyBool ZifyNat.
From Verif Require Import Err MarrayModel MarraySpec MarrayProofs MarrayEditProofs MarrayLoopProofs.
Import ListNotations.

Lemma ins_coord_repeat0 n d : d <= n -> ins_coord (repeat 0 n) d 0 = repeat 0 (S n).
Proof.
  intros H. unfold ins_coord. revert d H. induction n as [|n IH]; intros [|d] H; cbn; try lia; trivial.
  f_equal. apply IH. lia.
Qed.

Lemma at_idx_nth (a : marray Z) idx v : at_idx a idx = Some v -> nth (rowmajor (exts a) idx) (flat a) 0%Z = v.
Proof. unfold at_idx. intros H. now apply nth_error_nth. Qed.

Lemma sum_dim_spec (a : marray Z) dim e : wf a -> nth_error (exts a) dim = Some e -> 1 < length (exts a) ->
  stride_ok (drop_nth (exts a) dim) ->
  exists s, sum_dim a dim = Ok s /\ wf s /\ exts s = drop_nth (exts a) dim /\
  forall idx f, valid (exts s) idx -> (forall c, c < e -> at_idx a (ins_coord idx dim c) = Some (f c)) ->
    at_idx s idx = Some (sum_upto e f).
Proof.
  intros Hwf He Hr Hst. assert (Hd : dim < length (exts a)) by (apply nth_error_Some; congruence).
  destruct (acc_sums a dim e Hwf He) as (s & Hs & Hls & Hat).
  unfold sum_dim. destruct (Nat.ltb_spec dim (length (exts a))) as [_|]; [|lia].
  destruct (Nat.ltb_spec 1 (length (exts a))) as [_|]; [|lia]. cbn [andb negb].
  rewrite rev_drop_nth by lia.
  rewrite sum_loop_acc with (t := 0).
  - rewrite Hs. cbn [obind]. eexists; split; [reflexivity|]. unfold wf. cbn [exts flat].
    split; [exact Hls|]. split; [reflexivity|].
    intros idx f Hv Hf. unfold at_idx. cbn [exts flat]. rewrite Hat by exact Hv. f_equal. apply sum_upto_ext.
    intros c Hc. apply at_idx_nth. now apply Hf.
  - rewrite rev_length. lia.
  - rewrite rev_length. lia.
  - rewrite <- rev_drop_nth, rev_involutive by lia. exact Hst.
  - rewrite prod_rev. exact Hwf.
  - rewrite repeat_length, rev_length, drop_nth_length by lia. lia.
  - intros Hne. rewrite unle_0.
    + rewrite rev_length, drop_nth_length, ins_coord_repeat0 by lia. f_equal. lia.
    + rewrite prod_rev. rewrite <- Hwf. destruct (flat a); [congruence|cbn; lia].
Qed.

Lemma sum_same_rank_spec (a : marray Z) dim e : wf a -> nth_error (exts a) dim = Some e ->
  stride_ok (set_nth (exts a) dim 1) ->
  exists s, sum_same_rank a dim = Ok s /\ wf s /\ exts s = set_nth (exts a) dim 1 /\
  forall idx f, valid (exts s) idx -> (forall c, c < e -> at_idx a (set_coord idx dim c) = Some (f c)) ->
    at_idx s idx = Some (sum_upto e f).
Proof.
  intros Hwf He Hst. assert (Hd : dim < length (exts a)) by (apply nth_error_Some; congruence).
  destruct (acc_sums a dim e Hwf He) as (s & Hs & Hls & Hat).
  unfold sum_same_rank. destruct (Nat.ltb_spec dim (length (exts a))) as [_|]; [|lia]. cbn [negb].
  assert (Hp : prod (set_nth (exts a) dim 1) = prod (drop_nth (exts a) dim)).
  { unfold set_nth, drop_nth. rewrite !prod_app. cbn [prod]. lia. }
  assert (Hlen : length (set_nth (exts a) dim 1) = length (exts a)) by (unfold set_nth; now rewrite length_set).
  rewrite rev_set_nth, Hp by lia. rewrite Hlen.
  assert (Hz : repeat 0 (length (exts a)) = ins_coord (repeat 0 (length (exts a) - 1)) (length (exts a) - 1 - dim) 0).
  { rewrite ins_coord_repeat0 by lia. f_equal. lia. }
  rewrite Hz. rewrite same_loop_acc with (t := 0).
  - rewrite Hs. cbn [obind]. eexists; split; [reflexivity|]. unfold wf. cbn [exts flat].
    split; [lia|]. split; [reflexivity|].
    intros idx f Hv Hf.
    assert (Hset : nth_error (set_nth (exts a) dim 1) dim = Some 1) by (apply nth_error_set; lia).
    destruct (valid_split _ _ _ _ Hset Hv) as (c0 & Hc0 & Hlt & Hidx & Hv1 & Hv2).
    pose proof (valid_length _ _ Hv) as HL. rewrite Hlen in HL.
    unfold set_nth in Hv1, Hv2. rewrite firstn_set in Hv1 by lia. rewrite skipn_set in Hv2 by lia.
    assert (c0 = 0) by lia. subst c0.
    unfold at_idx. cbn [exts flat].
    rewrite (rowmajor_split _ _ _ _ _ Hset (eq_trans HL (eq_sym Hlen)) Hc0).
    unfold set_nth. rewrite firstn_set, skipn_set by lia.
    set (idx' := drop_nth idx dim).
    assert (Hf1 : firstn dim idx' = firstn dim idx).
    { unfold idx', drop_nth. rewrite firstn_app, firstn_firstn, Nat.min_id, firstn_length_le, Nat.sub_diag by lia.
      cbn. now rewrite app_nil_r. }
    assert (Hf2 : skipn dim idx' = skipn (S dim) idx).
    { unfold idx', drop_nth. rewrite skipn_app, firstn_length_le, Nat.sub_diag, skipn_all2 by (rewrite ?firstn_length; lia).
      reflexivity. }
    assert (Hvd : valid (drop_nth (exts a) dim) idx').
    { unfold idx', drop_nth. apply valid_app; [rewrite !firstn_length; lia|]. split; assumption. }
    replace ((rowmajor (firstn dim (exts a)) (firstn dim idx) * 1 + 0) * prod (skipn (S dim) (exts a)) +
       rowmajor (skipn (S dim) (exts a)) (skipn (S dim) idx)) with (rowmajor (drop_nth (exts a) dim) idx').
    + rewrite Hat by exact Hvd. f_equal. apply sum_upto_ext.
      intros c Hc. apply at_idx_nth. rewrite <- Hf by exact Hc. f_equal.
      unfold ins_coord, set_coord. now rewrite Hf1, Hf2.
    + rewrite rowmajor_drop; [|lia|apply valid_length in Hvd; rewrite drop_nth_length in Hvd; lia]. rewrite Hf1, Hf2. lia.
  - rewrite rev_length. lia.
  - rewrite <- rev_set_nth, rev_involutive by lia. exact Hst.
  - rewrite prod_rev. exact Hwf.
  - rewrite repeat_length, rev_length. lia.
  - intros Hne. rewrite unle_0.
    + rewrite rev_length, ins_coord_repeat0 by lia. f_equal. lia.
    + rewrite prod_rev. rewrite <- Hwf. destruct (flat a); [congruence|cbn; lia].
Qed.

(** ** sum() *)
Lemma fold_left_add l : forall z, fold_left Z.add l z = (z + sum_upto (length l) (fun j => nth j l 0%Z))%Z.
Proof.
  induction l as [|x l IH]; intros z; [cbn; lia|]. cbn [fold_left length].
  rewrite IH, sum_upto_shift. cbn [nth]. lia.
Qed.

Lemma sum_upto_plus n f g : sum_upto n (fun j => f j + g j)%Z = (sum_upto n f + sum_upto n g)%Z.
Proof. induction n as [|n IH]; cbn [sum_upto]; lia. Qed.
Lemma sum_upto_swap n m f : sum_upto n (fun i => sum_upto m (fun j => f i j)) = sum_upto m (fun j => sum_upto n (fun i => f i j)).
Proof.
  induction n as [|n IH]; cbn [sum_upto].
  - symmetry. now apply sum_upto_zero.
  - rewrite IH, <- sum_upto_plus. reflexivity.
Qed.

(** Eliminating a dimension does not change the total. *)
Lemma sum_dim_total (a : marray Z) dim e s : wf a -> nth_error (exts a) dim = Some e -> 1 < length (exts a) ->
  stride_ok (drop_nth (exts a) dim) -> sum_dim a dim = Ok s -> sum_all s = sum_all a.
Proof.
  intros Hwf He Hr Hst Hs. assert (Hd : dim < length (exts a)) by (apply nth_error_Some; congruence).
  destruct (sum_dim_spec a dim e Hwf He Hr Hst) as (s' & Hs' & Hwfs & Hex & Hat).
  assert (s' = s) by congruence. subst s'.
  unfold sum_all. rewrite !fold_left_add. f_equal.
  rewrite Hwfs, Hwf, Hex. rewrite (prod_split _ _ _ He).
  unfold drop_nth at 1. rewrite prod_app.
  set (I := prod (firstn dim (exts a))). set (C := prod (skipn (S dim) (exts a))).
  rewrite (sum_upto_mul I C), (sum_upto_mul (I * e) C), (sum_upto_mul I e).
  apply sum_upto_ext. intros x Hx. rewrite sum_upto_swap. apply sum_upto_ext. intros y Hy.
  set (idx := unrank (firstn dim (exts a)) x ++ unrank (skipn (S dim) (exts a)) y).
  assert (Hl1 : length (unrank (firstn dim (exts a)) x) = dim) by (rewrite unrank_length, firstn_length; lia).
  assert (Hli : length idx = length (exts a) - 1).
  { unfold idx. rewrite app_length, !unrank_length, firstn_length, skipn_length. lia. }
  assert (Hf : firstn dim idx = unrank (firstn dim (exts a)) x).
  { unfold idx. rewrite firstn_app, Hl1, Nat.sub_diag. cbn. rewrite app_nil_r. apply firstn_all2. lia. }
  assert (Hsk : skipn dim idx = unrank (skipn (S dim) (exts a)) y).
  { unfold idx. rewrite skipn_app, Hl1, Nat.sub_diag, skipn_all2 by lia. reflexivity. }
  assert (Hvd : valid (drop_nth (exts a) dim) idx).
  { unfold drop_nth, idx. apply valid_app; [rewrite unrank_length; reflexivity|]. split; apply unrank_valid; assumption. }
  assert (Hpos : rowmajor (drop_nth (exts a) dim) idx = x * C + y).
  { rewrite rowmajor_drop by lia. rewrite Hf, Hsk, !rowmajor_unrank by assumption. reflexivity. }
  rewrite <- Hpos, <- Hex.
  rewrite (at_idx_nth s idx (sum_upto e (fun c => nth ((x * e + c) * C + y) (flat a) 0%Z))); [reflexivity|].
  apply Hat; [now rewrite Hex|]. intros c Hc.
  unfold at_idx. rewrite (rowmajor_ins _ _ _ _ _ He) by lia. rewrite Hf, Hsk, !rowmajor_unrank by assumption.
  fold C. apply nth_error_nth'. unfold wf in Hwf. rewrite Hwf, (prod_split _ _ _ He). fold I C.
  assert (H1 : x * e + c < I * e) by (clear - Hx Hc; assert (S x * e <= I * e) by (apply Nat.mul_le_mono_r; lia); lia).
  clear - H1 Hy. assert (S (x * e + c) * C <= I * e * C) by (apply Nat.mul_le_mono_r; lia). lia.
Qed.

(** ** applyOp *)
Lemma strided_off ex : forall st ind, strided st ex ind = st * off_le ex ind.
Proof. induction ex as [|e ex IH]; intros st [|i ind]; cbn [strided off_le]; try lia. rewrite IH. lia. Qed.

Lemma map2_length {A B C} (f : A -> B -> C) x : forall y, length (map2 f x y) = Nat.min (length x) (length y).
Proof. induction x as [|a x IH]; intros [|b y]; cbn; trivial. now rewrite IH. Qed.

(** Single operand odometer. *)
Lemma odo_bc_right ex2 in2 in1 : odo_bc [] ex2 in1 in2 = (in1, inc_le ex2 in2).
Proof.
  reflexivity.
Qed.
Lemma odo_bc_left ex1 : forall in1, odo_bc ex1 [] in1 [] = (inc_le ex1 in1, []).
Proof.
  induction ex1 as [|e ex1 IH]; intros [|i in1]; trivial.
  cbn [odo_bc inc_le]. destruct (Nat.ltb i (e - 1)); [reflexivity|]. rewrite IH. reflexivity.
Qed.

Lemma map2_bc_id es : forall idx, valid es idx -> map2 bc_coord es idx = idx.
Proof.
  induction es as [|e es IH]; intros [|i idx] Hv; cbn [valid] in Hv; try tauto.
  cbn [map2]. rewrite IH by tauto. f_equal. unfold bc_coord. destruct (Nat.eqb_spec e 1); [lia|reflexivity].
Qed.
Lemma map2_nil_r {A B C} (f : A -> B -> C) x : map2 f x [] = [].
Proof. destruct x; reflexivity. Qed.

Lemma inc_le_bc_id es idx : valid es idx -> map2 bc_coord es (inc_le es idx) = inc_le es idx.
Proof.
  revert idx. induction es as [|e es IH]; intros [|i idx] Hv; cbn [valid] in Hv; try tauto.
  cbn [inc_le]. destruct Hv as [Hi Hv]. destruct (Nat.ltb_spec i (e - 1)) as [H|H]; cbn [map2]; f_equal.
  - unfold bc_coord. destruct (Nat.eqb_spec e 1); [lia|reflexivity].
  - now apply map2_bc_id.
  - unfold bc_coord. now destruct (Nat.eqb e 1).
  - now apply IH.
Qed.

Lemma odo_bc_ok : forall r1 r2 re idx, bc_extents r1 r2 = Ok re -> valid re idx ->
  odo_bc r1 r2 (map2 bc_coord r1 idx) (map2 bc_coord r2 idx) =
  (map2 bc_coord r1 (inc_le re idx), map2 bc_coord r2 (inc_le re idx)).
Proof.
  induction r1 as [|e1 r1 IH]; intros r2 re idx Hb Hv.
  - cbn [bc_extents] in Hb. injection Hb as <-. cbn [map2]. rewrite odo_bc_right.
    now rewrite map2_bc_id, inc_le_bc_id.
  - destruct r2 as [|e2 r2].
    + cbn [bc_extents] in Hb. injection Hb as <-. 
      rewrite (map2_bc_id _ idx), inc_le_bc_id by assumption. apply odo_bc_left.
    + cbn [bc_extents] in Hb.
      destruct (if Nat.eqb e1 e2 then _ else _) as [x|] eqn:Ex; [|discriminate].
      destruct (bc_extents r1 r2) as [re'| |] eqn:Er; cbn [obind] in Hb; try discriminate. injection Hb as <-.
      destruct idx as [|i idx]; cbn [valid] in Hv; [tauto|]. destruct Hv as [Hi Hv].
      cbn [map2 inc_le]. cbn [odo_bc].
      set (c1 := Nat.ltb 0 (e1 - 1) && Nat.ltb (bc_coord e1 i) (e1 - 1)).
      set (c2 := Nat.ltb 0 (e2 - 1) && Nat.ltb (bc_coord e2 i) (e2 - 1)).
      specialize (IH r2 re' idx Er Hv).
      assert (Hcase : (Nat.ltb i (x - 1) = true /\ (c1 || c2 = true) /\ (if c1 then S (bc_coord e1 i) else 0) = bc_coord e1 (S i)
                        /\ (if c2 then S (bc_coord e2 i) else 0) = bc_coord e2 (S i)) \/
                      (Nat.ltb i (x - 1) = false /\ c1 = false /\ c2 = false)).
      { unfold c1, c2, bc_coord.
        destruct (Nat.eqb_spec e1 e2) as [E|E]; [injection Ex as <-; subst e2|
          destruct (Nat.eqb_spec e1 1) as [E1|E1]; [injection Ex as <-; subst e1|
            destruct (Nat.eqb_spec e2 1) as [E2|E2]; [injection Ex as <-; subst e2|discriminate]]].
        - destruct (Nat.eqb_spec e1 1) as [->|E1].
          + right. cbn. repeat split; trivial. 
          + destruct (Nat.ltb_spec i (e1 - 1)) as [H|H].
            * left. destruct (Nat.ltb_spec 0 (e1 - 1)); [|lia]. cbn. auto.
            * right. rewrite !andb_false_r. auto.
        - destruct (Nat.eqb_spec e2 1) as [->|E2]; [lia|].
          destruct (Nat.ltb_spec i (e2 - 1)) as [H|H].
          + left. destruct (Nat.ltb_spec 0 (e2 - 1)); [|lia]. cbn. auto.
          + right. rewrite !andb_false_r. auto.
        - replace (Nat.ltb 0 (1 - 1)) with false by reflexivity. cbn [andb].
          destruct (Nat.ltb_spec i (e1 - 1)) as [H|H].
          + left. destruct (Nat.ltb_spec 0 (e1 - 1)); [|lia]. cbn. auto.
          + right. rewrite !andb_false_r. auto. }
      destruct Hcase as [(H1 & H2 & H3 & H4)|(H1 & H2 & H3)].
      * rewrite H1, H2. cbn [map2]. rewrite H3, H4. reflexivity.
      * rewrite H1, H2, H3. cbn [orb]. rewrite IH. cbn [map2].
        replace (bc_coord e1 0) with 0 by (unfold bc_coord; now destruct (Nat.eqb e1 1)).
        replace (bc_coord e2 0) with 0 by (unfold bc_coord; now destruct (Nat.eqb e2 1)).
        reflexivity.
Qed.

Lemma bc_valid : forall r1 r2 re idx, bc_extents r1 r2 = Ok re -> valid re idx ->
  valid r1 (map2 bc_coord r1 idx) /\ valid r2 (map2 bc_coord r2 idx).
Proof.
  induction r1 as [|e1 r1 IH]; intros r2 re idx Hb Hv.
  - cbn [bc_extents] in Hb. injection Hb as <-. cbn [map2 valid]. now rewrite map2_bc_id.
  - destruct r2 as [|e2 r2].
    + cbn [bc_extents] in Hb. injection Hb as <-. rewrite (map2_bc_id _ idx) by assumption. cbn [map2 valid]. auto.
    + cbn [bc_extents] in Hb.
      destruct (if Nat.eqb e1 e2 then _ else _) as [x|] eqn:Ex; [|discriminate].
      destruct (bc_extents r1 r2) as [re'| |] eqn:Er; cbn [obind] in Hb; try discriminate. injection Hb as <-.
      destruct idx as [|i idx]; cbn [valid] in Hv; [tauto|]. destruct Hv as [Hi Hv].
      destruct (IH r2 re' idx Er Hv) as [Ha Hb]. cbn [map2 valid].
      unfold bc_coord at 1 3.
      destruct (Nat.eqb_spec e1 e2) as [E|E]; [injection Ex as <-; subst e2|
          destruct (Nat.eqb_spec e1 1) as [E1|E1]; [injection Ex as <-; subst e1|
            destruct (Nat.eqb_spec e2 1) as [E2|E2]; [injection Ex as <-; subst e2|discriminate]]].
      * destruct (Nat.eqb_spec e1 1); repeat split; trivial; lia.
      * destruct (Nat.eqb_spec e2 1); repeat split; trivial; lia.
      * cbn [Nat.eqb]. repeat split; trivial; lia.
Qed.

Lemma bc_loop_ok {A B C} (op : A -> B -> C) r1 r2 re (d1 : list A) (d2 : list B) :
  bc_extents r1 r2 = Ok re -> length d1 = prod r1 -> length d2 = prod r2 ->
  forall n t in1 in2, t + n = prod re ->
  (n <> 0 -> in1 = map2 bc_coord r1 (unle re t) /\ in2 = map2 bc_coord r2 (unle re t)) ->
  exists d, bc_loop op r1 r2 d1 d2 n in1 in2 = Ok d /\ length d = n /\
  forall j x y, j < n ->
    nth_error d1 (off_le r1 (map2 bc_coord r1 (unle re (t + j)))) = Some x ->
    nth_error d2 (off_le r2 (map2 bc_coord r2 (unle re (t + j)))) = Some y ->
    nth_error d j = Some (op x y).
Proof.
  intros Hb Hl1 Hl2. induction n as [|n IH]; intros t in1 in2 Ht Hin; cbn [bc_loop].
  - exists []. repeat split; intros; lia.
  - destruct (Hin ltac:(discriminate)) as [-> ->]. clear Hin.
    assert (Hv : valid re (unle re t)) by (apply unle_valid; lia).
    destruct (bc_valid _ _ _ _ Hb Hv) as [Hv1 Hv2].
    rewrite !strided_off, !Nat.mul_1_l.
    pose proof (off_le_lt _ _ Hv1) as B1. pose proof (off_le_lt _ _ Hv2) as B2.
    destruct (nth_error d1 _) as [x|] eqn:Ex; [|apply nth_error_None in Ex; lia].
    destruct (nth_error d2 _) as [y|] eqn:Ey; [|apply nth_error_None in Ey; lia].
    rewrite (odo_bc_ok _ _ _ _ Hb Hv).
    destruct (IH (S t) (map2 bc_coord r1 (inc_le re (unle re t))) (map2 bc_coord r2 (inc_le re (unle re t))))
      as (d & Hd & Hld & Hn); [lia| |].
    { intros Hne. rewrite unle_S by lia. auto. }
    rewrite Hd. cbn [obind]. eexists; split; [reflexivity|]. split; [cbn; lia|].
    intros [|j] x' y' Hj H1 H2.
    + rewrite Nat.add_0_r in H1, H2. cbn [nth_error]. congruence.
    + cbn [nth_error]. apply Hn; [lia| |]; replace (S t + j) with (t + S j) by lia; assumption.
Qed.

Lemma bc_extents_length r1 : forall r2 re, bc_extents r1 r2 = Ok re -> length re = Nat.max (length r1) (length r2).
Proof.
  induction r1 as [|e1 r1 IH]; intros r2 re Hb; cbn [bc_extents] in Hb.
  - injection Hb as <-. reflexivity.
  - destruct r2 as [|e2 r2]; [injection Hb as <-; cbn; lia|].
    destruct (if Nat.eqb e1 e2 then _ else _) as [x|]; [|discriminate].
    destruct (bc_extents r1 r2) as [re'| |] eqn:Er; cbn [obind] in Hb; try discriminate. injection Hb as <-.
    cbn [length]. rewrite (IH _ _ Er). lia.
Qed.

(** Broadcast shape, stated from the last dimension: the extent that is not 1. *)
Fixpoint bc_shape_rev (e1 e2 : list nat) : list nat :=
  match e1, e2 with
  | [], _ => e2
  | _, [] => e1
  | a :: e1', b :: e2' => (if Nat.eqb a 1 then b else a) :: bc_shape_rev e1' e2'
  end.
Definition bc_shape (e1 e2 : list nat) : list nat := rev (bc_shape_rev (rev e1) (rev e2)).

Lemma bc_extents_spec r1 : forall r2,
  (compat_rev r1 r2 /\ bc_extents r1 r2 = Ok (bc_shape_rev r1 r2)) \/ (~ compat_rev r1 r2 /\ bc_extents r1 r2 = Throw LogicError).
Proof.
  induction r1 as [|e1 r1 IH]; intros r2; cbn [bc_extents compat_rev bc_shape_rev]; [now left|].
  destruct r2 as [|e2 r2]; [now left|]. unfold ext_compat.
  destruct (Nat.eqb_spec e1 e2) as [E|E]; [|destruct (Nat.eqb_spec e1 1) as [E1|E1]; [|destruct (Nat.eqb_spec e2 1) as [E2|E2]]].
  - destruct (IH r2) as [[Hc ->]|[Hc ->]]; cbn [obind]; [left|right]; (split; [tauto|]); trivial.
    subst e2. now destruct (Nat.eqb_spec e1 1).
  - destruct (IH r2) as [[Hc ->]|[Hc ->]]; cbn [obind]; [left|right]; (split; [tauto|]); trivial.
  - destruct (IH r2) as [[Hc ->]|[Hc ->]]; cbn [obind]; [left|right]; (split; [tauto|]); trivial.
  - right. split; [tauto|reflexivity].
Qed.

Lemma map2_firstn {A B C} (f : A -> B -> C) x : forall y, map2 f x y = map2 f x (firstn (length x) y).
Proof. induction x as [|a x IH]; intros [|b y]; cbn; trivial. now rewrite <- IH. Qed.
Lemma map2_app {A B C} (f : A -> B -> C) x1 : forall x2 y1 y2, length x1 = length y1 ->
  map2 f (x1 ++ x2) (y1 ++ y2) = map2 f x1 y1 ++ map2 f x2 y2.
Proof. induction x1 as [|a x1 IH]; intros x2 [|b y1] y2 H; cbn in *; try lia; trivial. now rewrite IH by lia. Qed.
Lemma map2_rev {A B C} (f : A -> B -> C) x : forall y, length x = length y -> map2 f (rev x) (rev y) = rev (map2 f x y).
Proof.
  induction x as [|a x IH]; intros [|b y] H; cbn in *; try lia; trivial.
  rewrite map2_app by (rewrite !rev_length; lia). now rewrite IH by lia.
Qed.

Lemma bc_idx_rev es idx : length es <= length idx -> map2 bc_coord (rev es) (rev idx) = rev (bc_idx es idx).
Proof.
  intros Hl. rewrite map2_firstn, rev_length, firstn_rev. unfold bc_idx. apply map2_rev.
  rewrite skipn_length. lia.
Qed.

Lemma at_idx_off {A} (a : marray A) idx : length idx = length (exts a) ->
  nth_error (flat a) (off_le (rev (exts a)) (rev idx)) = at_idx a idx.
Proof.
  intros Hl. unfold at_idx. f_equal. rewrite <- off_le_rowmajor by (rewrite !rev_length; lia).
  now rewrite !rev_involutive.
Qed.

Lemma applyOp_spec {A B C} (op : A -> B -> C) (m1 : marray A) (m2 : marray B) : wf m1 -> wf m2 ->
  compatible (exts m1) (exts m2) ->
  exists r, applyOp op m1 m2 = Ok r /\ wf r /\ exts r = bc_shape (exts m1) (exts m2) /\
  forall idx, valid (exts r) idx ->
    exists x y, at_idx m1 (bc_idx (exts m1) idx) = Some x /\ at_idx m2 (bc_idx (exts m2) idx) = Some y /\
                at_idx r idx = Some (op x y).
Proof.
  intros Hw1 Hw2 Hc. unfold applyOp, compatible, bc_shape in *.
  set (r1 := rev (exts m1)) in *. set (r2 := rev (exts m2)) in *.
  destruct (bc_extents_spec r1 r2) as [[_ Hb]|[Hn _]]; [|contradiction].
  set (re := bc_shape_rev r1 r2) in *. rewrite Hb. cbn [obind].
  pose proof (bc_extents_length _ _ _ Hb) as Hlen.
  destruct (bc_loop_ok op r1 r2 re (flat m1) (flat m2) Hb) with (n := prod re) (t := 0)
     (in1 := repeat 0 (length r1)) (in2 := repeat 0 (length r2)) as (d & Hd & Hld & Hn).
  - unfold r1. now rewrite prod_rev.
  - unfold r2. now rewrite prod_rev.
  - reflexivity.
  - intros Hne. rewrite unle_0 by assumption.
    assert (Hrep : forall r n, length r <= n -> map2 bc_coord r (repeat 0 n) = repeat 0 (length r)).
    { induction r as [|e r IH]; intros [|n] H; cbn [length] in H; try lia; trivial.
      cbn [repeat map2 length]. rewrite IH by lia. f_equal. unfold bc_coord. now destruct (Nat.eqb e 1). }
    rewrite !Hrep by lia. auto.
  - rewrite Hd. cbn [obind]. eexists; split; [reflexivity|]. unfold wf. cbn [exts flat].
    split; [now rewrite prod_rev|]. split; [reflexivity|].
    intros idx Hv.
    assert (Hvr : valid re (rev idx)) by (rewrite <- (rev_involutive re) ; now apply valid_rev).
    pose proof (valid_length _ _ Hvr) as Hli. rewrite rev_length in Hli.
    assert (Hl1 : length (exts m1) <= length idx) by (unfold r1 in Hlen; rewrite rev_length in Hlen; lia).
    assert (Hl2 : length (exts m2) <= length idx) by (unfold r2 in Hlen; rewrite !rev_length in Hlen; lia).
    destruct (bc_valid _ _ _ _ Hb Hvr) as [Hv1 Hv2].
    unfold r1 in Hv1. rewrite bc_idx_rev in Hv1 by assumption. unfold r2 in Hv2. rewrite bc_idx_rev in Hv2 by assumption.
    pose proof (off_le_lt _ _ Hv1) as B1. pose proof (off_le_lt _ _ Hv2) as B2.
    rewrite prod_rev in B1, B2. rewrite <- Hw1 in B1. rewrite <- Hw2 in B2.
    apply valid_length in Hv1. apply valid_length in Hv2. rewrite !rev_length in Hv1, Hv2.
    destruct (at_idx m1 (bc_idx (exts m1) idx)) as [x|] eqn:Ex.
    2:{ rewrite <- at_idx_off in Ex by assumption. apply nth_error_None in Ex. lia. }
    destruct (at_idx m2 (bc_idx (exts m2) idx)) as [y|] eqn:Ey.
    2:{ rewrite <- at_idx_off in Ey by assumption. apply nth_error_None in Ey. lia. }
    exists x, y. repeat split.
    pose proof (off_le_lt _ _ Hvr) as Br.
    unfold at_idx. cbn [exts flat].
    replace (rowmajor (rev re) idx) with (off_le re (rev idx))
      by (rewrite <- off_le_rowmajor by (rewrite rev_length; lia); now rewrite rev_involutive).
    apply Hn; trivial.
    + cbn [Nat.add]. rewrite unle_uniq by assumption. unfold r1. rewrite bc_idx_rev by assumption.
      rewrite at_idx_off by assumption. exact Ex.
    + cbn [Nat.add]. rewrite unle_uniq by assumption. unfold r2. rewrite bc_idx_rev by assumption.
      rewrite at_idx_off by assumption. exact Ey.
Qed.

Lemma applyOp_incompatible {A B C} (op : A -> B -> C) m1 m2 : ~ compatible (exts m1) (exts m2) ->
  applyOp op m1 m2 = Throw LogicError.
Proof.
  intros Hc. unfold applyOp. unfold compatible in Hc.
  destruct (bc_extents_spec (rev (exts m1)) (rev (exts m2))) as [[H _]|[_ ->]]; [contradiction|reflexivity].
Qed.

Lemma compatible_refl es : compatible es es.
Proof. unfold compatible. induction (rev es) as [|e l IH]; cbn; [trivial|]. unfold ext_compat. auto. Qed.
Lemma bc_shape_same es : bc_shape es es = es.
Proof.
  unfold bc_shape. rewrite <- (rev_involutive es) at 3. f_equal.
  induction (rev es) as [|e l IH]; cbn [bc_shape_rev]; [trivial|]. rewrite IH. f_equal. destruct (Nat.eqb_spec e 1); congruence.
Qed.
Lemma bc_idx_same es idx : valid es idx -> bc_idx es idx = idx.
Proof. intros Hv. unfold bc_idx. rewrite (valid_length _ _ Hv), Nat.sub_diag. cbn [skipn]. now apply map2_bc_id. Qed.

Lemma zip_with_nth {A B C} (op : A -> B -> C) : forall x y n u v, nth_error x n = Some u -> nth_error y n = Some v ->
  nth_error (zip_with op x y) n = Some (op u v).
Proof.
  induction x as [|a x IH]; intros [|b y] [|n] u v Hu Hv; cbn in *; try discriminate.
  - congruence.
  - now apply IH.
Qed.
Lemma zip_with_length {A B C} (op : A -> B -> C) : forall x y, length x = length y -> length (zip_with op x y) = length x.
Proof. induction x as [|a x IH]; intros [|b y] H; cbn in *; try lia; trivial. rewrite IH; lia. Qed.

(** The operators: both the same-shape fast path and the general path. *)
Lemma binop_spec {A B C} (op : A -> B -> C) (m1 : marray A) (m2 : marray B) : wf m1 -> wf m2 ->
  compatible (exts m1) (exts m2) ->
  exists r, binop op m1 m2 = Ok r /\ wf r /\ exts r = bc_shape (exts m1) (exts m2) /\
  forall idx, valid (exts r) idx ->
    exists x y, at_idx m1 (bc_idx (exts m1) idx) = Some x /\ at_idx m2 (bc_idx (exts m2) idx) = Some y /\
                at_idx r idx = Some (op x y).
Proof.
  intros Hw1 Hw2 Hc. unfold binop. destruct (list_eq_dec _ _ _) as [E|E]; [|now apply applyOp_spec].
  eexists; split; [reflexivity|]. unfold wf in *. cbn [exts flat]. rewrite <- E, bc_shape_same.
  split; [rewrite zip_with_length; congruence|]. split; [reflexivity|].
  intros idx Hv. rewrite bc_idx_same by assumption.
  pose proof (rowmajor_lt _ _ Hv) as Hb.
  unfold at_idx. rewrite <- E. cbn [exts flat].
  destruct (nth_error (flat m1) (rowmajor (exts m1) idx)) as [x|] eqn:Ex; [|apply nth_error_None in Ex; lia].
  destruct (nth_error (flat m2) (rowmajor (exts m1) idx)) as [y|] eqn:Ey; [|apply nth_error_None in Ey; rewrite Hw2, <- E in Ey; lia].
  exists x, y. repeat split. now apply zip_with_nth.
Qed.
Lemma binop_incompatible {A B C} (op : A -> B -> C) m1 m2 : ~ compatible (exts m1) (exts m2) ->
  binop op m1 m2 = Throw LogicError.
Proof.
  intros Hc. unfold binop. destruct (list_eq_dec _ _ _) as [E|E]; [|now apply applyOp_incompatible].
  exfalso. apply Hc. rewrite E. apply compatible_refl.
Qed.
