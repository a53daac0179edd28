From Coq Require Import List Arith Bool Lia.
From Coq Require Import ZifyBool.
From Verif Require Import Err MarrayModel MarrayEditProofs MarrayExnModel.
Import ListNotations.

(** A buffer holding exactly the elements of a list. *)
Definition holds {V} (m : buffer V) (l : list V) : Prop :=
  forall p, m p = match nth_error l p with Some v => Live v | None => Raw end.
Definition all_raw {V} (m : buffer V) : Prop := forall p, m p = Raw.

Definition inr (p lo n : nat) : bool := (lo <=? p) && (p <? lo + n).

Ltac bs := repeat match goal with
  | |- context [?a =? ?b] => destruct (Nat.eqb_spec a b); try subst
  | |- context [inr ?p ?lo ?n] => unfold inr
  | |- context [?a <=? ?b] => destruct (Nat.leb_spec a b)
  | |- context [?a <? ?b] => destruct (Nat.ltb_spec a b)
  end; cbn [andb]; try lia.

Section P.
Context {V : Type}.
Implicit Types (old new : buffer V).

Lemma move_seg_ok n (f : nat -> V) : forall old new w r,
  (forall j, j < n -> old (r + j) = Live (f (r + j))) -> (forall j, j < n -> new (w + j) = Raw) ->
  exists old' new', move_seg n old new w r = Ok (old', new') /\
  (forall p, old' p = if inr p r n then Moved else old p) /\
  (forall p, new' p = if inr p w n then Live (f (r + (p - w))) else new p).
Proof.
  induction n as [|n IH]; intros old new w r Ho Hn; cbn [move_seg].
  - exists old, new. repeat split; intros p; bs; reflexivity.
  - pose proof (Ho 0 ltac:(lia)) as H0. pose proof (Hn 0 ltac:(lia)) as H1. rewrite Nat.add_0_r in H0, H1. rewrite H0, H1.
    destruct (IH (upd old r Moved) (upd new w (Live (f r))) (S w) (S r)) as (old' & new' & He & H2 & H3).
    + intros j Hj. unfold upd. bs. rewrite Nat.add_succ_comm. apply Ho. lia.
    + intros j Hj. unfold upd. bs. rewrite Nat.add_succ_comm. apply Hn. lia.
    + exists old', new'. split; [exact He|]. split; intros p.
      * rewrite H2. unfold upd. bs; reflexivity.
      * rewrite H3. unfold upd. bs; try reflexivity; do 2 f_equal; lia.
Qed.

Lemma fill_seg_ok n val : forall bud new w, (forall j, j < n -> new (w + j) = Raw) ->
  exists new' bud' d t, fill_seg n bud val new w = Ok (new', bud', d, t) /\
  d <= n /\ (t = false -> d = n) /\ (bud = None -> t = false /\ bud' = None) /\
  (forall p, new' p = if inr p w d then Live val else new p).
Proof.
  induction n as [|n IH]; intros bud new w Hn; cbn [fill_seg].
  - exists new, bud, 0, false. do 4 (split; [now auto|]). intros p; bs; reflexivity.
  - pose proof (Hn 0 ltac:(lia)) as H1. rewrite Nat.add_0_r in H1.
    set (bud2 := match bud with Some (S b) => Some b | _ => bud end).
    assert (Hs : forall j, j < n -> upd new w (Live val) (S w + j) = Raw).
    { intros j Hj. unfold upd. bs. rewrite Nat.add_succ_comm. apply Hn. lia. }
    destruct (IH bud2 _ _ Hs) as (new' & bud' & d & t & He & Hd & Ht & Hb & Hp).
    destruct bud as [[|b]|].
    + exists new, (Some 0), 0, true. split; [reflexivity|]. split; [lia|]. do 2 (split; [discriminate|]). intros p; bs; reflexivity.
    + rewrite H1. subst bud2. rewrite He. cbn [obind].
      exists new', bud', (S d), t. split; [reflexivity|]. split; [lia|]. split.
      { intros H. now rewrite Ht. }
      split; [discriminate|].
      intros p. rewrite Hp. unfold upd. bs; reflexivity.
    + rewrite H1. subst bud2. rewrite He. cbn [obind].
      exists new', bud', (S d), t. split; [reflexivity|]. split; [lia|]. split.
      { intros H. now rewrite Ht. }
      split; [exact Hb|].
      intros p. rewrite Hp. unfold upd. bs; reflexivity.
Qed.

Lemma copy_seg_ok n (f : nat -> V) old : forall bud new w r,
  (forall j, j < n -> old (r + j) = Live (f (r + j))) -> (forall j, j < n -> new (w + j) = Raw) ->
  exists new' bud' d t, copy_seg n bud old new w r = Ok (new', bud', d, t) /\
  d <= n /\ (t = false -> d = n) /\ (bud = None -> t = false /\ bud' = None) /\
  (forall p, new' p = if inr p w d then Live (f (r + (p - w))) else new p).
Proof.
  induction n as [|n IH]; intros bud new w r Ho Hn; cbn [copy_seg].
  - exists new, bud, 0, false. do 4 (split; [now auto|]). intros p; bs; reflexivity.
  - pose proof (Ho 0 ltac:(lia)) as H0. pose proof (Hn 0 ltac:(lia)) as H1. rewrite Nat.add_0_r in H0, H1.
    set (bud2 := match bud with Some (S b) => Some b | _ => bud end).
    destruct (IH bud2 (upd new w (Live (f r))) (S w) (S r)) as (new' & bud' & d & t & He & Hd & Ht & Hb & Hp).
    { intros j Hj. rewrite Nat.add_succ_comm. apply Ho. lia. }
    { intros j Hj. unfold upd. bs. rewrite Nat.add_succ_comm. apply Hn. lia. }
    assert (Hfin : forall p, new' p = if inr p w (S d) then Live (f (r + (p - w))) else new p).
    { intros p. rewrite Hp. unfold upd. bs; try reflexivity; do 2 f_equal; lia. }
    destruct bud as [[|b]|].
    + exists new, (Some 0), 0, true. split; [reflexivity|]. split; [lia|]. do 2 (split; [discriminate|]). intros p; bs; reflexivity.
    + rewrite H0, H1. subst bud2. rewrite He. cbn [obind].
      exists new', bud', (S d), t. split; [reflexivity|]. split; [lia|]. split.
      { intros H. now rewrite Ht. }
      split; [discriminate|exact Hfin].
    + rewrite H0, H1. subst bud2. rewrite He. cbn [obind].
      exists new', bud', (S d), t. split; [reflexivity|]. split; [lia|]. split.
      { intros H. now rewrite Ht. }
      split; [exact Hb|exact Hfin].
Qed.

Lemma back_seg_ok n (f : nat -> V) : forall old new w r,
  (forall j, j < n -> old (r + j) = Moved) -> (forall j, j < n -> new (w + j) = Live (f (r + j))) ->
  exists old' new', back_seg n old new w r = Ok (old', new') /\
  (forall p, old' p = if inr p r n then Live (f p) else old p) /\
  (forall p, new' p = if inr p w n then Raw else new p).
Proof.
  induction n as [|n IH]; intros old new w r Ho Hn; cbn [back_seg].
  - exists old, new. repeat split; intros p; bs; reflexivity.
  - pose proof (Ho 0 ltac:(lia)) as H0. pose proof (Hn 0 ltac:(lia)) as H1. rewrite Nat.add_0_r in H0, H1. rewrite H0, H1.
    destruct (IH (upd old r (Live (f (r + 0)))) (upd new w Raw) (S w) (S r)) as (old' & new' & He & H2 & H3).
    + intros j Hj. unfold upd. bs. rewrite Nat.add_succ_comm. apply Ho. lia.
    + intros j Hj. unfold upd. bs. rewrite !Nat.add_succ_comm. apply Hn. lia.
    + exists old', new'. rewrite Nat.add_0_r in *. split; [exact He|]. split; intros p.
      * rewrite H2. unfold upd. bs; reflexivity.
      * rewrite H3. unfold upd. bs; try reflexivity.
Qed.

Lemma destroy_seg_ok n : forall new w, (forall j, j < n -> new (w + j) <> Raw) ->
  exists new', destroy_seg n new w = Ok new' /\ (forall p, new' p = if inr p w n then Raw else new p).
Proof.
  induction n as [|n IH]; intros new w Hn; cbn [destroy_seg].
  - exists new. split; [reflexivity|]. intros p; bs; reflexivity.
  - pose proof (Hn 0 ltac:(lia)) as H1. rewrite Nat.add_0_r in H1.
    destruct (IH (upd new w Raw) (S w)) as (new' & He & Hp).
    { intros j Hj. unfold upd. bs. rewrite Nat.add_succ_comm. apply Hn. lia. }
    exists new'. split.
    + destruct (new w); [congruence|exact He|exact He].
    + intros p. rewrite Hp. unfold upd. bs; reflexivity.
Qed.

(** Layout written by complete iterations. *)
Section Layout.
Variables (a n b : nat) (val : V) (f : nat -> V).
Definition block old new w r : Prop :=
  (forall j, j < a -> old (r + j) = Moved /\ new (w + j) = Live (f (r + j))) /\
  (forall j, j < n -> new (w + a + j) = Live val) /\
  (forall j, j < b -> old (r + a + j) = Moved /\ new (w + a + n + j) = Live (f (r + a + j))).
Fixpoint blocks (m : nat) old new w r : Prop :=
  match m with
  | 0 => True
  | S k => block old new w r /\ blocks k old new (w + a + n + b) (r + a + b)
  end.

Lemma blocks_ext m : forall old new old2 new2 w r, (forall p, r <= p -> old2 p = old p) -> (forall p, w <= p -> new2 p = new p) ->
  blocks m old new w r -> blocks m old2 new2 w r.
Proof.
  induction m as [|m IH]; intros old new old2 new2 w r Ho Hn; cbn [blocks]; [trivial|].
  intros [(B1 & B2 & B3) Hb]. split.
  - split; [|split].
    + intros j Hj. rewrite Ho, Hn by lia. now apply B1.
    + intros j Hj. rewrite Hn by lia. now apply B2.
    + intros j Hj. rewrite Ho, Hn by lia. now apply B3.
  - apply (IH old new); trivial; intros p Hp; [apply Ho|apply Hn]; lia.
Qed.

(** State when iteration [m] was interrupted after [j] new elements. *)
Definition broken (m j : nat) old new old' new' w r : Prop :=
  j <= n /\ blocks m old' new' w r /\
  let w' := w + m * (a + n + b) in let r' := r + m * (a + b) in
  (forall q, q < a -> old' (r' + q) = Moved /\ new' (w' + q) = Live (f (r' + q))) /\
  (forall q, q < j -> new' (w' + a + q) = Live val) /\
  (forall p, p < r \/ r' + a <= p -> old' p = old p) /\
  (forall p, p < w \/ w' + a + j <= p -> new' p = new p).

Lemma ins_fwd_ok its : forall i bud old new w r,
  (forall j, j < its * (a + b) -> old (r + j) = Live (f (r + j))) -> (forall p, w <= p -> new p = Raw) ->
  (exists old' new', ins_fwd its i a n b val bud old new w r = Ok (Done (old', new')) /\
     blocks its old' new' w r /\
     (forall p, p < r \/ r + its * (a + b) <= p -> old' p = old p) /\
     (forall p, p < w \/ w + its * (a + n + b) <= p -> new' p = new p)) \/
  (bud <> None /\ exists m j old' new', ins_fwd its i a n b val bud old new w r = Ok (Stopped (i + m) j (old', new')) /\
     m < its /\ broken m j old new old' new' w r).
Proof.
  induction its as [|its IH]; intros i bud old new w r Ho Hn; cbn [ins_fwd].
  - left. exists old, new. repeat split; trivial.
  - destruct (move_seg_ok a f old new w r) as (old1 & new1 & E1 & O1 & N1).
    { intros j Hj. apply Ho. cbn [Nat.mul]. lia. } { intros j Hj. apply Hn. lia. }
    rewrite E1. cbn [obind].
    destruct (fill_seg_ok n val bud new1 (w + a)) as (new2 & bud2 & d & t & E2 & Hd & Ht & Hb2 & N2).
    { intros j Hj. rewrite N1. bs. apply Hn. lia. }
    rewrite E2. cbn [obind]. destruct t.
    + right. split; [intros ->; destruct Hb2; congruence|].
      exists 0, d, old1, new2. rewrite Nat.add_0_r. split; [reflexivity|]. split; [lia|].
      unfold broken. cbn [blocks Nat.mul]. rewrite !Nat.add_0_r.
      split; [exact Hd|]. split; [trivial|]. repeat split.
      * rewrite O1. bs. reflexivity.
      * rewrite N2, N1. bs. do 2 f_equal. lia.
      * intros q Hq. rewrite N2. bs. reflexivity.
      * intros p Hp. rewrite O1. bs; reflexivity.
      * intros p Hp. rewrite N2, N1. bs; reflexivity.
    + rewrite (Ht eq_refl) in N2. clear Ht Hd.
      destruct (move_seg_ok b f old1 new2 (w + a + n) (r + a)) as (old3 & new3 & E3 & O3 & N3).
      { intros j Hj. rewrite O1. bs. rewrite <- Nat.add_assoc. apply Ho. cbn [Nat.mul]. lia. }
      { intros j Hj. rewrite N2, N1. bs. apply Hn. lia. }
      rewrite E3. cbn [obind].
      assert (HO : forall p, old3 p = if inr p r (a + b) then Moved else old p).
      { intros p. rewrite O3, O1. bs; reflexivity. }
      assert (HN : forall p, p < w \/ w + a + n + b <= p -> new3 p = new p).
      { intros p Hp. rewrite N3, N2, N1. bs; reflexivity. }
      assert (HB : block old3 new3 w r).
      { split; [|split].
        - intros j Hj. rewrite HO, N3, N2, N1. split; bs; trivial. do 2 f_equal. lia.
        - intros j Hj. rewrite N3, N2. bs; trivial.
        - intros j Hj. rewrite HO, N3. split; bs; trivial. do 2 f_equal. lia. }
      destruct (IH (S i) bud2 old3 new3 (w + a + n + b) (r + a + b)) as
        [(old' & new' & E & HBl & HO' & HN')|(Hnb & m & j & old' & new' & E & Hm & Hj & HBl & Hw & Hq & HO' & HN')].
      { intros j Hj. rewrite HO. bs. replace (r + a + b + j) with (r + (a + b + j)) by lia. apply Ho. cbn [Nat.mul]. lia. }
      { intros p Hp. rewrite HN by lia. apply Hn. lia. }
      * left. exists old', new'. split; [exact E|]. cbn [blocks]. split; [split; [|exact HBl]|].
        -- destruct HB as (B1 & B2 & B3). split; [|split].
           ++ intros j Hj. rewrite HO', HN' by lia. now apply B1.
           ++ intros j Hj. rewrite HN' by lia. now apply B2.
           ++ intros j Hj. rewrite HO', HN' by lia. now apply B3.
        -- split.
           ++ intros p Hp. cbn [Nat.mul] in Hp. rewrite HO' by lia. rewrite HO. bs; reflexivity.
           ++ intros p Hp. cbn [Nat.mul] in Hp. rewrite HN' by lia. apply HN. lia.
      * right. split; [intros ->; destruct Hb2 as [_ ->]; congruence|].
        exists (S m), j, old', new'. rewrite Nat.add_succ_r. split; [exact E|]. split; [lia|].
        set (w1 := w + a + n + b) in *. set (r1 := r + a + b) in *.
        cbv zeta in Hw, Hq, HO', HN'.
        unfold broken. cbv zeta. cbn [Nat.mul].
        replace (w + (a + n + b + m * (a + n + b))) with (w1 + m * (a + n + b)) by (unfold w1; lia).
        replace (r + (a + b + m * (a + b))) with (r1 + m * (a + b)) by (unfold r1; lia).
        split; [exact Hj|]. cbn [blocks]. split; [split; [|exact HBl]|].
        -- destruct HB as (B1 & B2 & B3). unfold w1, r1 in *. split; [|split].
           ++ intros q Hq'. rewrite HO', HN' by lia. now apply B1.
           ++ intros q Hq'. rewrite HN' by lia. now apply B2.
           ++ intros q Hq'. rewrite HO', HN' by lia. now apply B3.
        -- split; [exact Hw|]. split; [exact Hq|]. split.
           ++ intros p Hp. rewrite HO' by (unfold r1 in *; lia). rewrite HO. unfold r1 in *. bs; reflexivity.
           ++ intros p Hp. rewrite HN' by (unfold w1 in *; lia). apply HN. unfold w1 in *. lia.
Qed.

Lemma ins_back_ok m j : forall old new w r, blocks m old new w r ->
  let w' := w + m * (a + n + b) in let r' := r + m * (a + b) in
  (forall q, q < a -> old (r' + q) = Moved /\ new (w' + q) = Live (f (r' + q))) ->
  (forall q, q < j -> new (w' + a + q) = Live val) ->
  exists old' new', ins_back m j a n b old new w r = Ok (old', new') /\
  (forall p, old' p = if inr p r (m * (a + b) + a) then Live (f p) else old p) /\
  (forall p, new' p = if inr p w (m * (a + n + b) + a + j) then Raw else new p).
Proof.
  induction m as [|m IH]; intros old new w r HB w' r' H1 H2; subst w' r'; cbn [ins_back].
  - cbn [Nat.mul] in *. rewrite !Nat.add_0_r in H1. rewrite Nat.add_0_r in H2.
    destruct (back_seg_ok a f old new w r) as (old1 & new1 & E1 & O1 & N1).
    { intros q Hq. now apply H1. } { intros q Hq. now apply H1. }
    rewrite E1. cbn [obind].
    destruct (destroy_seg_ok j new1 (w + a)) as (new2 & E2 & N2).
    { intros q Hq. rewrite N1. bs. rewrite H2 by lia. discriminate. }
    rewrite E2. cbn [obind]. exists old1, new2. split; [reflexivity|]. split; intros p.
    + rewrite O1. bs; reflexivity.
    + rewrite N2, N1. bs; reflexivity.
  - cbn [blocks] in HB. destruct HB as [(B1 & B2 & B3) HB].
    destruct (back_seg_ok a f old new w r) as (old1 & new1 & E1 & O1 & N1).
    { intros q Hq. now apply B1. } { intros q Hq. now apply B1. }
    rewrite E1. cbn [obind].
    destruct (destroy_seg_ok n new1 (w + a)) as (new2 & E2 & N2).
    { intros q Hq. rewrite N1. bs. rewrite B2 by lia. discriminate. }
    rewrite E2. cbn [obind].
    destruct (back_seg_ok b f old1 new2 (w + a + n) (r + a)) as (old3 & new3 & E3 & O3 & N3).
    { intros q Hq. rewrite O1. bs. now apply B3. }
    { intros q Hq. rewrite N2, N1. bs. now apply B3. }
    rewrite E3. cbn [obind].
    assert (HO : forall p, old3 p = if inr p r (a + b) then Live (f p) else old p).
    { intros p. rewrite O3, O1. bs; reflexivity. }
    assert (HN : forall p, new3 p = if inr p w (a + n + b) then Raw else new p).
    { intros p. rewrite N3, N2, N1. bs; reflexivity. }
    destruct (IH old3 new3 (w + a + n + b) (r + a + b)) as (old' & new' & E & O' & N').
    { apply (blocks_ext m old new); trivial; intros p Hp; [rewrite HO|rewrite HN]; bs; reflexivity. }
    { cbn [Nat.mul] in H1. intros q Hq. rewrite HO, HN.
      replace (w + a + n + b + m * (a + n + b)) with (w + (a + n + b + m * (a + n + b))) by lia.
      replace (r + a + b + m * (a + b)) with (r + (a + b + m * (a + b))) by lia.
      specialize (H1 q Hq). set (X := m * (a + b)) in *. set (Y := m * (a + n + b)) in *. split; bs; apply H1. }
    { cbn [Nat.mul] in H2. intros q Hq. rewrite HN.
      replace (w + a + n + b + m * (a + n + b)) with (w + (a + n + b + m * (a + n + b))) by lia.
      specialize (H2 q Hq). set (Y := m * (a + n + b)) in *. bs; apply H2. }
    exists old', new'. split; [exact E|]. cbn [Nat.mul].
    set (X := m * (a + b)) in *. set (Y := m * (a + n + b)) in *. split; intros p.
    + rewrite O', HO. bs; reflexivity.
    + rewrite N', HN. bs; reflexivity.
Qed.

(** The list the complete loop leaves in the new buffer is the one of the list model. *)
Lemma blocks_list its : forall src d old new w r, ins_loop its a n b val src = Ok d ->
  (forall p v, nth_error src p = Some v -> f (r + p) = v) ->
  blocks its old new w r -> forall p v, nth_error d p = Some v -> new (w + p) = Live v.
Proof.
  induction its as [|its IH]; intros src d old new w r Hl Hf HB p v Hp; cbn [ins_loop blocks] in *.
  - injection Hl as <-. destruct p; discriminate.
  - destruct HB as [(B1 & B2 & B3) HB]. destruct (Nat.ltb_spec (length src) (a + b)) as [|Hlen]; [discriminate|].
    destruct (ins_loop its a n b val (skipn (a + b) src)) as [rest| |] eqn:E; cbn [obind] in Hl; try discriminate.
    injection Hl as <-.
    assert (L1 : length (firstn a src) = a) by (rewrite firstn_length; lia).
    assert (L3 : length (firstn b (skipn a src)) = b) by (rewrite firstn_length, skipn_length; lia).
    destruct (Nat.lt_ge_cases p a) as [H|H].
    { rewrite nth_error_app1 in Hp by lia. rewrite nth_error_firstn in Hp by lia.
      destruct (B1 p H) as [_ ->]. now rewrite (Hf _ _ Hp). }
    rewrite nth_error_app2 in Hp by lia. rewrite L1 in Hp.
    destruct (Nat.lt_ge_cases p (a + n)) as [H2|H2].
    { rewrite nth_error_app1 in Hp by (rewrite repeat_length; lia). rewrite nth_error_repeat in Hp by lia.
      injection Hp as <-. replace (w + p) with (w + a + (p - a)) by lia. apply B2. lia. }
    rewrite nth_error_app2 in Hp by (rewrite repeat_length; lia). rewrite repeat_length in Hp.
    destruct (Nat.lt_ge_cases p (a + n + b)) as [H3|H3].
    { rewrite nth_error_app1 in Hp by lia. rewrite nth_error_firstn, nth_error_skipn in Hp by lia.
      replace (w + p) with (w + a + n + (p - a - n)) by lia. destruct (B3 (p - a - n)) as [_ ->]; [lia|].
      rewrite <- Nat.add_assoc. now rewrite (Hf _ _ Hp). }
    rewrite nth_error_app2 in Hp by lia. rewrite L3 in Hp.
    replace (w + p) with (w + a + n + b + (p - a - n - b)) by lia.
    apply (IH _ _ _ _ _ _ E) with (2 := HB); [|exact Hp].
    intros q u Hq. rewrite nth_error_skipn in Hq. rewrite <- (Hf _ _ Hq). f_equal. lia.
Qed.
End Layout.

(** The moving insert: either it completes with the contents of the list model, or the old buffer is exactly as before and the new one is
    all raw, so nothing leaks and nothing changed. *)
Lemma insert_moving_ok its a n b val bud (src : list V) (old : buffer V) : length src = its * (a + b) -> holds old src ->
  exists res, insert_moving its a n b val bud old = Ok res /\
  match res with
  | Completed old' new' => exists d, ins_loop its a n b val src = Ok d /\ holds new' d
  | Threw old' new' => bud <> None /\ holds old' src /\ all_raw new'
  end.
Proof.
  intros Hl Hold. unfold insert_moving.
  destruct src as [|v0 src0] eqn:Esrc.
  { (* no elements: f is irrelevant *)
    assert (Hz : its * (a + b) = 0) by (cbn in Hl; lia).
    destruct (ins_fwd_ok a n b val (fun _ => val) its 0 bud old (fun _ => Raw) 0 0) as
      [(old' & new' & E & HB & HO & HN)|(Hb & m & j & old' & new' & E & Hm & Hj & HB & H1 & H2 & HO & HN)].
    - rewrite Hz. intros; lia.
    - reflexivity.
    - rewrite E. cbn [obind]. eexists; split; [reflexivity|]. cbn beta iota.
      destruct (ins_loop_ok its a n b val []) as (d & Ed & Ld & _); [cbn; lia|].
      exists d. split; [exact Ed|]. intros p. destruct (nth_error d p) as [v|] eqn:Ep.
      + replace p with (0 + p) by lia. apply (blocks_list a n b val (fun _ => val) its [] d old' new' 0 0 Ed); trivial.
        intros q u Hq. destruct q; discriminate.
      + apply nth_error_None in Ep. apply HN. lia.
    - rewrite E. cbn [obind Nat.add].
      destruct (ins_back_ok a n b val (fun _ => val) m j old' new' 0 0 HB) as (old2 & new2 & E2 & O2 & N2); [exact H1|exact H2|].
      rewrite E2. cbn [obind]. eexists; split; [reflexivity|]. cbn beta iota. split; [exact Hb|].
      cbv zeta in HO, HN.
      assert (Hab : a + b = 0) by (destruct (a + b); [reflexivity|]; destruct its; [lia|cbn in Hz; lia]).
      split; intros p.
      + rewrite O2, <- Hold. replace (m * (a + b)) with 0 in * by (rewrite Hab; lia). bs. apply HO. lia.
      + rewrite N2. destruct (inr p 0 _) eqn:Ei; [reflexivity|]. apply HN. unfold inr in Ei. lia. }
  rewrite <- Esrc in *. clear Esrc src0.
  set (f := fun p => nth p src v0).
  assert (Hf : forall p v, nth_error src p = Some v -> f (0 + p) = v).
  { intros p v Hp. now apply nth_error_nth. }
  assert (Hof : forall p, p < length src -> old p = Live (f p)).
  { intros p Hp. rewrite Hold. rewrite (nth_error_nth' src v0 Hp). reflexivity. }
  destruct (ins_fwd_ok a n b val f its 0 bud old (fun _ => Raw) 0 0) as
      [(old' & new' & E & HB & HO & HN)|(Hb & m & j & old' & new' & E & Hm & Hj & HB & H1 & H2 & HO & HN)].
  - intros j Hj. apply Hof. lia.
  - reflexivity.
  - rewrite E. cbn [obind]. eexists; split; [reflexivity|]. cbn beta iota.
      destruct (ins_loop_ok its a n b val src Hl) as (d & Ed & Ld & _).
      exists d. split; [exact Ed|]. intros p. destruct (nth_error d p) as [v|] eqn:Ep.
      + replace p with (0 + p) by lia. now apply (blocks_list a n b val f its src d old' new' 0 0 Ed).
      + apply nth_error_None in Ep. apply HN. lia.
  - rewrite E. cbn [obind Nat.add].
    destruct (ins_back_ok a n b val f m j old' new' 0 0 HB) as (old2 & new2 & E2 & O2 & N2); [exact H1|exact H2|].
    rewrite E2. cbn [obind]. eexists; split; [reflexivity|]. cbn beta iota. split; [exact Hb|].
    cbv zeta in HO, HN. split; intros p.
    + rewrite O2, <- Hold. destruct (inr p 0 _) eqn:Ei.
      * symmetry. apply Hof. rewrite Hl. unfold inr in Ei.
        assert (m * (a + b) + (a + b) <= its * (a + b)).
        { replace (m * (a + b) + (a + b)) with (S m * (a + b)) by lia. apply Nat.mul_le_mono_r. lia. }
        lia.
      * apply HO. unfold inr in Ei. lia.
    + rewrite N2. destruct (inr p 0 _) eqn:Ei; [reflexivity|]. apply HN. unfold inr in Ei. lia.
Qed.
End P.

Section Copying.
Context {V : Type}.
Implicit Types (old new : buffer V).

Definition seq_in old (r : nat) (src : list V) : Prop := forall p v, nth_error src p = Some v -> old (r + p) = Live v.

(** One copied segment, as a list. *)
Lemma copy_seg_list n old src : forall bud new w r, seq_in old r src -> n <= length src -> (forall p, w <= p -> new p = Raw) ->
  exists new' bud' d t, copy_seg n bud old new w r = Ok (new', bud', d, t) /\
  d <= n /\ (t = false -> d = n) /\ (bud = None -> t = false /\ bud' = None) /\
  seq_in new' w (firstn d src) /\ (forall p, p < w \/ w + d <= p -> new' p = new p).
Proof.
  destruct src as [|v0 src0] eqn:Es.
  - intros bud new w r Hs Hn Hr. cbn in Hn. assert (n = 0) by lia. subst n.
    exists new, bud, 0, false. do 4 (split; [now auto|]). split; [intros [|p] v Hp; discriminate|trivial].
  - rewrite <- Es. clear Es. intros bud new w r Hs Hn Hr.
    destruct (copy_seg_ok n (fun p => nth (p - r) src v0) old bud new w r) as (new' & bud' & d & t & E & Hd & Ht & Hb & Hp).
    + intros j Hj. rewrite (Hs j (nth j src v0)); [do 2 f_equal; lia|]. apply nth_error_nth'. lia.
    + intros j Hj. apply Hr. lia.
    + exists new', bud', d, t. do 4 (split; [assumption|]). split.
      * intros p v Hq. assert (p < d).
        { assert (nth_error (firstn d src) p <> None) by congruence. apply nth_error_Some in H.
          rewrite firstn_length in H. lia. }
        rewrite nth_error_firstn in Hq by assumption. rewrite Hp. bs. f_equal.
        replace (r + (w + p - w) - r) with p by lia. now apply nth_error_nth.
      * intros p Hq. rewrite Hp. bs; reflexivity.
Qed.

Lemma seq_in_app m w l1 l2 : seq_in m w (l1 ++ l2) <-> seq_in m w l1 /\ seq_in m (w + length l1) l2.
Proof.
  split.
  - intros H. split; intros p v Hp.
    + apply H. rewrite nth_error_app1; [assumption|]. apply nth_error_Some. congruence.
    + rewrite <- Nat.add_assoc. apply H. rewrite nth_error_app2 by lia. now replace (length l1 + p - length l1) with p by lia.
  - intros [H1 H2] p v Hp. destruct (Nat.lt_ge_cases p (length l1)) as [H|H].
    + rewrite nth_error_app1 in Hp by assumption. now apply H1.
    + rewrite nth_error_app2 in Hp by assumption. replace (w + p) with (w + length l1 + (p - length l1)) by lia. now apply H2.
Qed.
Lemma seq_in_ext m m' w l : (forall p, w <= p < w + length l -> m' p = m p) -> seq_in m w l -> seq_in m' w l.
Proof. intros He H p v Hp. rewrite He; [now apply H|]. assert (p < length l) by (apply nth_error_Some; congruence). lia. Qed.
Lemma seq_in_skip m r k l : k <= length l -> seq_in m r l -> seq_in m (r + k) (skipn k l).
Proof. intros Hk H p v Hp. rewrite nth_error_skipn in Hp. rewrite <- Nat.add_assoc. now apply H. Qed.

(** What the interrupted or completed copy loop leaves: a list of live elements from [w] on, nothing else touched. *)
Definition copied (d : list V) (bud : budget) new new' (w : nat) (stop : option nat) : Prop :=
  match stop with
  | None => seq_in new' w d /\ (forall p, p < w \/ w + length d <= p -> new' p = new p)
  | Some w' => bud <> None /\ exists l, w' = w + length l /\ seq_in new' w l /\ (forall p, p < w \/ w' <= p -> new' p = new p)
  end.

Lemma fill_seg_list n val : forall (bud : budget) new w, (forall p, w <= p -> new p = Raw) ->
  exists new' bud' d t, fill_seg n bud val new w = Ok (new', bud', d, t) /\
  d <= n /\ (t = false -> d = n) /\ (bud = None -> t = false /\ bud' = None) /\
  seq_in new' w (repeat val d) /\ (forall p, p < w \/ w + d <= p -> new' p = new p).
Proof.
  intros bud new w Hr. destruct (fill_seg_ok n val bud new w) as (new' & bud' & d & t & E & Hd & Ht & Hb & Hp).
  - intros j Hj. apply Hr. lia.
  - exists new', bud', d, t. do 4 (split; [assumption|]). split.
    + intros p v Hq. assert (p < d). { assert (nth_error (repeat val d) p <> None) by congruence.
        apply nth_error_Some in H. now rewrite repeat_length in H. }
      rewrite nth_error_repeat in Hq by assumption. injection Hq as <-. rewrite Hp. bs. reflexivity.
    + intros p Hq. rewrite Hp. bs; reflexivity.
Qed.

Lemma ins_copy_fwd_ok its a n b val old : forall src d bud new w r, ins_loop its a n b val src = Ok d ->
  seq_in old r src -> (forall p, w <= p -> new p = Raw) ->
  exists new' stop, ins_copy_fwd its a n b val bud old new w r = Ok (new', stop) /\ copied d bud new new' w stop.
Proof.
  induction its as [|its IH]; intros src d bud new w r Hl Hs Hr; cbn [ins_loop ins_copy_fwd] in *.
  - injection Hl as <-. exists new, None. split; [reflexivity|]. split; [intros [|p] v Hp; discriminate|reflexivity].
  - destruct (Nat.ltb_spec (length src) (a + b)) as [|Hlen]; [discriminate|].
    destruct (ins_loop its a n b val (skipn (a + b) src)) as [rest| |] eqn:E; cbn [obind] in Hl; try discriminate.
    injection Hl as <-.
    destruct (copy_seg_list a old src bud new w r Hs ltac:(lia) Hr) as (new1 & bud1 & j1 & t1 & E1 & Hj1 & Ht1 & Hb1 & S1 & F1).
    rewrite E1. cbn [obind]. destruct t1.
    { exists new1, (Some (w + j1)). split; [reflexivity|]. split; [intros ->; now destruct Hb1|].
      exists (firstn j1 src). rewrite firstn_length_le by lia. auto. }
    rewrite (Ht1 eq_refl) in *. clear Ht1 Hj1 j1.
    destruct (fill_seg_list n val bud1 new1 (w + a)) as (new2 & bud2 & j2 & t2 & E2 & Hj2 & Ht2 & Hb2 & S2 & F2).
    { intros p Hp. rewrite F1 by lia. apply Hr. lia. }
    rewrite E2. cbn [obind]. destruct t2.
    { exists new2, (Some (w + a + j2)). split; [reflexivity|]. split; [intros ->; destruct Hb1 as [_ ->]; [reflexivity|]; now destruct Hb2|].
      exists (firstn a src ++ repeat val j2). rewrite app_length, repeat_length, firstn_length_le by lia.
      split; [lia|]. split.
      - apply seq_in_app. rewrite firstn_length_le by lia. split; [|exact S2].
        apply (seq_in_ext new1); [|exact S1]. rewrite firstn_length_le by lia. intros p Hp. apply F2. lia.
      - intros p Hp. rewrite F2, F1 by lia. reflexivity. }
    rewrite (Ht2 eq_refl) in *. clear Ht2 Hj2 j2.
    destruct (copy_seg_list b old (skipn a src) bud2 new2 (w + a + n) (r + a)) as (new3 & bud3 & j3 & t3 & E3 & Hj3 & Ht3 & Hb3 & S3 & F3).
    { apply seq_in_skip; [lia|exact Hs]. } { rewrite skipn_length. lia. }
    { intros p Hp. rewrite F2, F1 by lia. apply Hr. lia. }
    rewrite E3. cbn [obind].
    assert (L3 : length (firstn j3 (skipn a src)) = j3) by (rewrite firstn_length, skipn_length; lia).
    assert (Hpre : seq_in new3 w (firstn a src ++ repeat val n ++ firstn j3 (skipn a src))).
    { apply seq_in_app. rewrite firstn_length_le by lia. split.
      - apply (seq_in_ext new1); [|exact S1]. rewrite firstn_length_le by lia. intros p Hp. rewrite F3, F2 by lia. reflexivity.
      - apply seq_in_app. rewrite repeat_length. split; [|exact S3].
        apply (seq_in_ext new2); [|exact S2]. rewrite repeat_length. intros p Hp. apply F3. lia. }
    destruct t3.
    { exists new3, (Some (w + a + n + j3)). split; [reflexivity|].
      split; [intros ->; destruct Hb1 as [_ ->]; [reflexivity|]; destruct Hb2 as [_ ->]; [reflexivity|]; now destruct Hb3|].
      exists (firstn a src ++ repeat val n ++ firstn j3 (skipn a src)).
      rewrite !app_length, repeat_length, firstn_length_le, L3 by lia. split; [lia|]. split; [exact Hpre|].
      intros p Hp. rewrite F3, F2, F1 by lia. reflexivity. }
    rewrite (Ht3 eq_refl) in *. clear Ht3 Hj3 j3.
    assert (F : forall p, p < w \/ w + a + n + b <= p -> new3 p = new p).
    { intros p Hp. rewrite F3, F2, F1 by lia. reflexivity. }
    destruct (IH (skipn (a + b) src) rest bud3 new3 (w + a + n + b) (r + a + b) E) as (new' & stop & E' & HC).
    { rewrite <- Nat.add_assoc. apply seq_in_skip; [lia|exact Hs]. }
    { intros p Hp. rewrite F by lia. apply Hr. lia. }
    exists new', stop. split; [exact E'|].
    assert (Lp : length (firstn a src ++ repeat val n ++ firstn b (skipn a src)) = a + n + b).
    { rewrite !app_length, repeat_length, firstn_length_le, L3 by lia. lia. }
    unfold copied in *. destruct stop as [w'|].
    + destruct HC as (Hb & l & Hw & Sl & Fl). split; [intros ->; destruct Hb1 as [_ ->]; [reflexivity|];
        destruct Hb2 as [_ ->]; [reflexivity|]; destruct Hb3 as [_ ->]; [reflexivity|]; congruence|].
      exists ((firstn a src ++ repeat val n ++ firstn b (skipn a src)) ++ l). rewrite app_length, Lp. split; [lia|].
      split.
      * apply seq_in_app. rewrite Lp. split; [apply (seq_in_ext new3); [|exact Hpre]; rewrite Lp; intros p Hp; apply Fl; lia|].
        now rewrite !Nat.add_assoc.
      * intros p Hp. rewrite Fl, F by lia. reflexivity.
    + destruct HC as (Sl & Fl).
      replace (firstn a src ++ repeat val n ++ firstn b (skipn a src) ++ rest)
        with ((firstn a src ++ repeat val n ++ firstn b (skipn a src)) ++ rest) by now rewrite <- !app_assoc.
      rewrite app_length, Lp. split.
      * apply seq_in_app. rewrite Lp. split; [apply (seq_in_ext new3); [|exact Hpre]; rewrite Lp; intros p Hp; apply Fl; lia|].
        now rewrite !Nat.add_assoc.
      * intros p Hp. rewrite Fl, F by lia. reflexivity.
Qed.

Lemma era_copy_fwd_ok its a n b old : forall (src d : list V) bud new w r, era_loop its a n b src = Ok d ->
  seq_in old r src -> (forall p, w <= p -> new p = Raw) ->
  exists new' stop, era_copy_fwd its a n b bud old new w r = Ok (new', stop) /\ copied d bud new new' w stop.
Proof.
  induction its as [|its IH]; intros src d bud new w r Hl Hs Hr; cbn [era_loop era_copy_fwd] in *.
  - injection Hl as <-. exists new, None. split; [reflexivity|]. split; [intros [|p] v Hp; discriminate|reflexivity].
  - destruct (Nat.ltb_spec (length src) (a + n + b)) as [|Hlen]; [discriminate|].
    destruct (era_loop its a n b (skipn (a + n + b) src)) as [rest| |] eqn:E; cbn [obind] in Hl; try discriminate.
    injection Hl as <-.
    destruct (copy_seg_list a old src bud new w r Hs ltac:(lia) Hr) as (new1 & bud1 & j1 & t1 & E1 & Hj1 & Ht1 & Hb1 & S1 & F1).
    rewrite E1. cbn [obind]. destruct t1.
    { exists new1, (Some (w + j1)). split; [reflexivity|]. split; [intros ->; now destruct Hb1|].
      exists (firstn j1 src). rewrite firstn_length_le by lia. auto. }
    rewrite (Ht1 eq_refl) in *. clear Ht1 Hj1 j1.
    destruct (copy_seg_list b old (skipn (a + n) src) bud1 new1 (w + a) (r + a + n)) as (new3 & bud3 & j3 & t3 & E3 & Hj3 & Ht3 & Hb3 & S3 & F3).
    { rewrite <- Nat.add_assoc. apply seq_in_skip; [lia|exact Hs]. } { rewrite skipn_length. lia. }
    { intros p Hp. rewrite F1 by lia. apply Hr. lia. }
    rewrite E3. cbn [obind].
    assert (L3 : length (firstn j3 (skipn (a + n) src)) = j3) by (rewrite firstn_length, skipn_length; lia).
    assert (Hpre : seq_in new3 w (firstn a src ++ firstn j3 (skipn (a + n) src))).
    { apply seq_in_app. rewrite firstn_length_le by lia. split; [|exact S3].
      apply (seq_in_ext new1); [|exact S1]. rewrite firstn_length_le by lia. intros p Hp. rewrite F3 by lia. reflexivity. }
    destruct t3.
    { exists new3, (Some (w + a + j3)). split; [reflexivity|].
      split; [intros ->; destruct Hb1 as [_ ->]; [reflexivity|]; now destruct Hb3|].
      exists (firstn a src ++ firstn j3 (skipn (a + n) src)).
      rewrite !app_length, firstn_length_le, L3 by lia. split; [lia|]. split; [exact Hpre|].
      intros p Hp. rewrite F3, F1 by lia. reflexivity. }
    rewrite (Ht3 eq_refl) in *. clear Ht3 Hj3 j3.
    assert (F : forall p, p < w \/ w + a + b <= p -> new3 p = new p).
    { intros p Hp. rewrite F3, F1 by lia. reflexivity. }
    destruct (IH (skipn (a + n + b) src) rest bud3 new3 (w + a + b) (r + a + n + b) E) as (new' & stop & E' & HC).
    { replace (r + a + n + b) with (r + (a + n + b)) by lia. apply seq_in_skip; [lia|exact Hs]. }
    { intros p Hp. rewrite F by lia. apply Hr. lia. }
    exists new', stop. split; [exact E'|].
    assert (Lp : length (firstn a src ++ firstn b (skipn (a + n) src)) = a + b).
    { rewrite !app_length, firstn_length_le, L3 by lia. lia. }
    unfold copied in *. destruct stop as [w'|].
    + destruct HC as (Hb & l & Hw & Sl & Fl). split; [intros ->; destruct Hb1 as [_ ->]; [reflexivity|];
        destruct Hb3 as [_ ->]; [reflexivity|]; congruence|].
      exists ((firstn a src ++ firstn b (skipn (a + n) src)) ++ l). rewrite app_length, Lp. split; [lia|].
      split.
      * apply seq_in_app. rewrite Lp. split; [apply (seq_in_ext new3); [|exact Hpre]; rewrite Lp; intros p Hp; apply Fl; lia|].
        now rewrite !Nat.add_assoc.
      * intros p Hp. rewrite Fl, F by lia. reflexivity.
    + destruct HC as (Sl & Fl). rewrite app_assoc.
      rewrite app_length, Lp. split.
      * apply seq_in_app. rewrite Lp. split; [apply (seq_in_ext new3); [|exact Hpre]; rewrite Lp; intros p Hp; apply Fl; lia|].
        now rewrite !Nat.add_assoc.
      * intros p Hp. rewrite Fl, F by lia. reflexivity.
Qed.

Lemma copied_finish d (bud : budget) new' stop old : copied d bud (fun _ => Raw) new' 0 stop ->
  exists res, match stop with
              | None => Ok (Completed old new')
              | Some w => obind (destroy_seg w new' 0) (fun new'' => Ok (Threw old new''))
              end = Ok res /\
  match res with
  | Completed o m => o = old /\ holds m d
  | Threw o m => bud <> None /\ o = old /\ all_raw m
  end.
Proof.
  intros HC. unfold copied in HC. destruct stop as [w'|].
  - destruct HC as (Hb & l & -> & Sl & Fl). cbn [Nat.add] in *.
    destruct (destroy_seg_ok (length l) new' 0) as (new2 & E2 & N2).
    { intros j Hj. destruct (nth_error l j) as [v|] eqn:Ev; [|apply nth_error_None in Ev; lia].
      rewrite (Sl j v Ev). discriminate. }
    rewrite E2. cbn [obind]. eexists; split; [reflexivity|]. cbn beta iota. split; [exact Hb|]. split; [reflexivity|].
    intros p. rewrite N2. destruct (inr p 0 _) eqn:Ei; [reflexivity|]. apply Fl. unfold inr in Ei. lia.
  - destruct HC as (Sl & Fl). eexists; split; [reflexivity|]. cbn beta iota. split; [reflexivity|].
    intros p. destruct (nth_error d p) as [v|] eqn:Ev.
    + now apply (Sl p v).
    + apply nth_error_None in Ev. apply Fl. lia.
Qed.

Lemma holds_seq old (src : list V) : holds old src -> seq_in old 0 src.
Proof. intros H p v Hp. cbn [Nat.add]. rewrite H, Hp. reflexivity. Qed.

Lemma insert_copying_ok its a n b val bud (src : list V) old : length src = its * (a + b) -> holds old src ->
  exists d res, ins_loop its a n b val src = Ok d /\ insert_copying its a n b val bud old = Ok res /\
  match res with
  | Completed o m => o = old /\ holds m d
  | Threw o m => bud <> None /\ o = old /\ all_raw m
  end.
Proof.
  intros Hl Ho. destruct (ins_loop_ok its a n b val src Hl) as (d & Ed & _).
  destruct (ins_copy_fwd_ok its a n b val old src d bud (fun _ => Raw) 0 0 Ed (holds_seq _ _ Ho)) as (new' & stop & E & HC); [reflexivity|].
  destruct (copied_finish d bud new' stop old HC) as (res & Er & Hr).
  exists d, res. split; [exact Ed|]. split; [|exact Hr].
  unfold insert_copying. rewrite E. cbn [obind]. exact Er.
Qed.
Lemma erase_copying_ok its a n b bud (src : list V) old : length src = its * (a + n + b) -> holds old src ->
  exists d res, era_loop its a n b src = Ok d /\ erase_copying its a n b bud old = Ok res /\
  match res with
  | Completed o m => o = old /\ holds m d
  | Threw o m => bud <> None /\ o = old /\ all_raw m
  end.
Proof.
  intros Hl Ho. destruct (era_loop_ok its a n b src Hl) as (d & Ed & _).
  destruct (era_copy_fwd_ok its a n b old src d bud (fun _ => Raw) 0 0 Ed (holds_seq _ _ Ho)) as (new' & stop & E & HC); [reflexivity|].
  destruct (copied_finish d bud new' stop old HC) as (res & Er & Hr).
  exists d, res. split; [exact Ed|]. split; [|exact Hr].
  unfold erase_copying. rewrite E. cbn [obind]. exact Er.
Qed.
End Copying.
