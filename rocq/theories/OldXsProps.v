(** C100: cross sections and tau spectra of files of any version. *)
From Coq Require Import Reals String List Arith Bool ZArith Lia.
From Verif Require Import Err StructModel CMatrix FlavorModel FileModel FileProofs FileProps LegacyModel LegacyProps OldXsModel.
Import ListNotations.
Local Open Scope nat_scope.

(** ** Specification: arrays by index, the last index runs fastest *)
Fixpoint offset (sh idx : list nat) : nat :=
  match sh, idx with
  | _ :: sh', i :: idx' => i * fold_right Nat.mul 1 sh' + offset sh' idx'
  | _, _ => 0
  end.
Definition cell (a : arr R) (idx : list nat) : R := nth (offset (a_shape a) idx) (a_data a) 0%R.
Definition item (dims : list nat) (d : list R) (idx : list nat) : R := nth (offset dims idx) d 0%R.
Definition inside (dims idx : list nat) : Prop := Forall2 lt idx dims.
(** dataset [n] of the file has extents [dims] and contents [d] *)
Definition has_table (g : dsets) (n : string) (dims : list nat) (d : list R) : Prop :=
  lookup n g = Some (DDbl dims d) /\ length d = fold_right Nat.mul 1 dims.
(** the items of [a] at [pre ++ idx] are those of the dataset at [idx] *)
Definition holds (a : arr R) (pre dims : list nat) (d : list R) : Prop :=
  forall idx, inside dims idx -> cell a (pre ++ idx) = item dims d idx.

Lemma table_of g n dims d : has_table g n dims d -> table g n = Some (dims, d).
Proof. intros [L _]. unfold table. rewrite L. reflexivity. Qed.
Lemma table_has g n dims d : table g n = Some (dims, d) -> lookup n g = Some (DDbl dims d).
Proof. unfold table. destruct (lookup n g) as [[a b|z]|]; try discriminate. intro E. injection E as -> ->. reflexivity. Qed.

(** ** One table *)
Lemma read_into_ok sh k n w d : n <= w -> prod sh = k * w -> length d = k * n ->
  exists a, read_into sh k n w d = Ok a /\ a_shape a = sh /\ length (a_data a) = prod sh /\
  (forall r i, r < k -> i < n -> nth (r * w + i) (a_data a) 0%R = nth (r * n + i) d 0%R).
Proof.
  intros W P L. unfold read_into. destruct (Nat.eqb_spec w n) as [->|N].
  - rewrite (proj2 (Nat.leb_le _ _)) by lia. eexists. split; [reflexivity|]. cbn [a_shape a_data].
    replace (prod sh - length d) with 0 by lia. cbn [repeat]. rewrite app_nil_r. repeat split. lia.
  - rewrite L, Nat.eqb_refl. eexists. split; [reflexivity|]. cbn [a_shape a_data]. split; [reflexivity|]. split.
    + rewrite P. apply fill_length; assumption.
    + intros r i Hr Hi. apply fill_nth; assumption.
Qed.

Ltac idx I := repeat match goal with
  | I : Forall2 lt _ (_ :: _) |- _ => inversion I; clear I; subst
  | I : Forall2 lt _ [] |- _ => inversion I; clear I; subst
  end.

(** [k * nr * f] rows, one more index in front *)
Lemma sigma_ok k nr f n w d t : n <= w -> t < k -> length d = k * nr * f * n ->
  exists a, read_into [k; nr; f; w] (k * nr * f) n w d = Ok a /\ a_shape a = [k; nr; f; w] /\
  (forall r j e, r < nr -> j < f -> e < n -> cell a [t; r; j; e] = item [k; nr; f; n] d [t; r; j; e]).
Proof.
  intros W T L. destruct (read_into_ok [k; nr; f; w] (k * nr * f) n w d W) as (a & A & S & _ & V); [cbn; lia|exact L|].
  exists a. split; [exact A|]. split; [exact S|]. intros r j e Hr Hj He. unfold cell, item. rewrite S. cbn [offset fold_right].
  replace (t * (nr * (f * (w * 1))) + (r * (f * (w * 1)) + (j * (w * 1) + (e * 1 + 0)))) with (((t * nr + r) * f + j) * w + e) by lia.
  rewrite V; [f_equal; lia| |exact He]. assert (t * nr + r < k * nr) by nia. nia.
Qed.
Lemma dsigma_ok k nr f n w d t : n <= w -> t < k -> length d = k * nr * f * n * n ->
  exists a, read_into [k; nr; f; n; w] (k * nr * f * n) n w d = Ok a /\ a_shape a = [k; nr; f; n; w] /\
  (forall r j e e', r < nr -> j < f -> e < n -> e' < n -> cell a [t; r; j; e; e'] = item [k; nr; f; n; n] d [t; r; j; e; e']).
Proof.
  intros W T L. destruct (read_into_ok [k; nr; f; n; w] (k * nr * f * n) n w d W) as (a & A & S & _ & V); [cbn; lia|exact L|].
  exists a. split; [exact A|]. split; [exact S|]. intros r j e e' Hr Hj He He'. unfold cell, item. rewrite S. cbn [offset fold_right].
  replace (t * (nr * (f * (n * (w * 1)))) + (r * (f * (n * (w * 1))) + (j * (n * (w * 1)) + (e * (w * 1) + (e' * 1 + 0)))))
    with ((((t * nr + r) * f + j) * n + e) * w + e') by lia.
  rewrite V; [f_equal; lia| |exact He']. assert (t * nr + r < k * nr) by nia. assert ((t * nr + r) * f + j < k * nr * f) by nia. nia.
Qed.
Lemma gr_ok n w d : n <= w -> length d = n ->
  exists a, read_into [w] 1 n w d = Ok a /\ a_shape a = [w] /\ holds a [] [n] d.
Proof.
  intros W L. destruct (read_into_ok [w] 1 n w d W) as (a & A & S & _ & V); [cbn; lia|lia|].
  exists a. split; [exact A|]. split; [exact S|]. intros l I. unfold inside in I. idx I. cbn [app]. unfold cell, item. rewrite S.
  cbn [offset fold_right]. specialize (V 0 x ltac:(lia) ltac:(assumption)). rewrite !Nat.mul_0_l in V. cbn [Nat.add] in V.
  rewrite !Nat.mul_1_r, !Nat.add_0_r. exact V.
Qed.
Lemma dgr_ok n w d : n <= w -> length d = n * n ->
  exists a, read_into [n; w] n n w d = Ok a /\ a_shape a = [n; w] /\ holds a [] [n; n] d.
Proof.
  intros W L. destruct (read_into_ok [n; w] n n w d W) as (a & A & S & _ & V); [cbn; lia|lia|].
  exists a. split; [exact A|]. split; [exact S|]. intros l I. unfold inside in I. idx I. cbn [app]. unfold cell, item. rewrite S.
  cbn [offset fold_right]. rewrite !Nat.mul_1_r, !Nat.add_0_r. apply V; assumption.
Qed.
Lemma tau3_ok nr n w d : n <= w -> length d = nr * n * n ->
  exists a, read_into [nr; n; w] (nr * n) n w d = Ok a /\ a_shape a = [nr; n; w] /\ holds a [] [nr; n; n] d.
Proof.
  intros W L. destruct (read_into_ok [nr; n; w] (nr * n) n w d W) as (a & A & S & _ & V); [cbn; lia|lia|].
  exists a. split; [exact A|]. split; [exact S|]. intros l I. unfold inside in I. idx I. cbn [app]. unfold cell, item. rewrite S.
  cbn [offset fold_right].
  replace (x * (n * (w * 1)) + (x0 * (w * 1) + (x1 * 1 + 0))) with ((x * n + x0) * w + x1) by lia.
  rewrite V; [f_equal; lia| |assumption]. nia.
Qed.

(** ** The tau spectra of old files, flat *)
Lemma nth_concat_rect (ll : list (list R)) w i j : Forall (fun l => length l = w) ll -> i < length ll -> j < w ->
  nth (i * w + j) (concat ll) 0%R = nth j (nth i ll []) 0%R.
Proof.
  revert i. induction ll as [|l ll IH]; intros i F I J; [cbn in I; lia|]. inversion F; subst. cbn [concat].
  destruct i as [|i]; cbn [nth].
  - cbn [Nat.mul Nat.add]. apply app_nth1. assumption.
  - rewrite app_nth2 by nia. replace (S i * length l + j - length l) with (i * length l + j) by lia.
    apply IH; [assumption|cbn in I; lia|assumption].
Qed.
Lemma concat_rect_length (ll : list (list R)) w : Forall (fun l => length l = w) ll -> length (concat ll) = length ll * w.
Proof. induction 1 as [|l ll E _ IH]; [reflexivity|]. cbn [concat length]. rewrite app_length, IH, E. lia. Qed.
Lemma tau_row_length n w d e l : e <= w -> read_tau_row n w d e = Ok l -> length l = w.
Proof.
  intros W. unfold read_tau_row. destruct (elems d (e * n) e) as [q| |] eqn:Q; cbn [obind]; try discriminate.
  intro E. injection E as <-. destruct (elems_val _ _ _ _ Q) as [L _]. rewrite app_length, repeat_length, L. lia.
Qed.
Lemma tau_rows_rect n w d : forall k e t, e + k <= w -> read_tau_rows n w d e k = Ok t -> length t = k /\ Forall (fun l => length l = w) t.
Proof.
  induction k as [|k IH]; intros e t W; cbn [read_tau_rows].
  - intro E. injection E as <-. split; [reflexivity|constructor].
  - destruct (read_tau_row n w d e) as [a| |] eqn:A; cbn [obind]; try discriminate.
    destruct (read_tau_rows n w d (S e) k) as [q| |] eqn:Q; cbn [obind]; try discriminate. intro E. injection E as <-.
    destruct (IH (S e) q ltac:(lia) Q) as [L F]. split; [cbn [length]; rewrite L; reflexivity|]. constructor; [|exact F].
    apply (tau_row_length n w d e); [lia|exact A].
Qed.
Lemma tau_flat nr n w d ta r i j : 0 < nr -> n <= w -> read_tau nr n w d = Ok ta -> r < nr -> i < n -> j < w ->
  nth ((r * n + i) * w + j) (concat (concat ta)) 0%R = tau_at ta r i j.
Proof.
  intros N W H Hr Hi Hj. unfold read_tau in H. destruct nr as [|nr']; [lia|].
  destruct (read_tau_rows n w d 0 n) as [t| |] eqn:T; cbn [obind] in H; try discriminate. injection H as <-.
  destruct (tau_rows_rect n w d n 0 t ltac:(lia) T) as [L F].
  assert (C : forall m, concat (repeat t m) = concat (repeat t m)) by reflexivity. clear C.
  assert (F2 : forall m, Forall (fun l => length l = w) (concat (repeat t m))).
  { induction m as [|m IH]; [constructor|]. cbn [repeat concat]. apply Forall_app. split; assumption. }
  assert (L2 : forall m, length (concat (repeat t m)) = m * n).
  { induction m as [|m IH]; [reflexivity|]. cbn [repeat concat]. rewrite app_length, IH, L. lia. }
  change (t :: repeat t nr') with (repeat t (S nr')).
  rewrite (nth_concat_rect _ w) by (try apply F2; try exact Hj; rewrite L2; nia).
  unfold tau_at. f_equal.
  assert (G : forall m r, r < m -> nth (r * n + i) (concat (repeat t m)) [] = nth i t []).
  { induction m as [|m IH]; intros q Hq; [lia|]. cbn [repeat concat]. destruct q as [|q].
    - cbn [Nat.mul Nat.add]. apply app_nth1. lia.
    - rewrite app_nth2 by nia. replace (S q * n + i - length t) with (q * n + i) by lia. apply IH. lia. }
  rewrite G by exact Hr. rewrite (nth_indep _ _ t) by (rewrite repeat_length; exact Hr). rewrite nth_repeat. reflexivity.
Qed.
Lemma tau2_ok nr n w d : 0 < nr -> n <= w -> length d = n * n ->
  exists ta, read_tau nr n w d = Ok ta /\
  (forall r i j, r < nr -> i < n -> j < n ->
     cell (Arr [nr; n; w] (concat (concat ta))) [r; i; j] = if j <? i then item [n; n] d [i; j] else 0%R).
Proof.
  intros N W L. destruct (c89_tau nr n w d N W L) as (ta & T & V). exists ta. split; [exact T|].
  intros r i j Hr Hi Hj. unfold cell. cbn [a_shape a_data offset fold_right].
  replace (r * (n * (w * 1)) + (i * (w * 1) + (j * 1 + 0))) with ((r * n + i) * w + j) by lia.
  rewrite (tau_flat nr n w d ta r i j N W T Hr Hi) by lia. rewrite V by lia. unfold item. cbn [offset fold_right].
  destruct (j <? i); [f_equal; lia|reflexivity].
Qed.

(** ** The file *)
Lemma obind_ok {A C} (x : outcome A) (k : A -> outcome C) a : x = Ok a -> obind x k = k a.
Proof. intros ->. reflexivity. Qed.

(** the tables of an old file: no index for the target, spectra of the tau for both kinds together *)
Record old_tables (g : dsets) (nr f n : nat) (scc snc sgr dcc dnc dgr ta tl : list R) : Prop := {
  o_scc : has_table g "sigmacc" [nr; f; n] scc;
  o_snc : has_table g "sigmanc" [nr; f; n] snc;
  o_sgr : has_table g "sigmagr" [n] sgr;
  o_dcc : has_table g "dNdEcc" [nr; f; n; n] dcc;
  o_dnc : has_table g "dNdEnc" [nr; f; n; n] dnc;
  o_dgr : has_table g "dNdEgr" [n; n] dgr;
  o_ta : has_table g "dNdEtauall" [n; n] ta;
  o_tl : has_table g "dNdEtaulep" [n; n] tl }.

Lemma open_of g n dims d : has_table g n dims d -> open g n = Ok d.
Proof. intro H. unfold open. rewrite (table_of _ _ _ _ H). reflexivity. Qed.
Lemma extents_of g n dims d room : has_table g n dims d -> length dims <= room -> extents g n room = Ok tt.
Proof. intros H L. unfold extents. rewrite (table_of _ _ _ _ H), (proj2 (Nat.leb_le _ _) L). reflexivity. Qed.

(** Every file in the old layout is read: one target, the isoscalar nucleon; every cross section at its place;
    of the spectra of the tau the part below the diagonal, the same for neutrinos and antineutrinos. *)
Theorem c100_old g nr f n scc snc sgr dcc dnc dgr ta tl : 0 < nr -> old_tables g nr f n scc snc sgr dcc dnc dgr ta tl ->
  exists s, read_xs true g nr f n = Ok s /\ targets s = [81%Z] /\
  holds (sigma_CC s) [0] [nr; f; n] scc /\ holds (sigma_NC s) [0] [nr; f; n] snc /\ holds (sigma_GR s) [] [n] sgr /\
  holds (dNdE_CC s) [0] [nr; f; n; n] dcc /\ holds (dNdE_NC s) [0] [nr; f; n; n] dnc /\ holds (dNdE_GR s) [] [n; n] dgr /\
  (forall r i j, r < nr -> i < n -> j < n ->
    cell (tau_all s) [r; i; j] = (if j <? i then item [n; n] ta [i; j] else 0%R) /\
    cell (tau_lep s) [r; i; j] = (if j <? i then item [n; n] tl [i; j] else 0%R)).
Proof.
  intros N [S1 S2 S3 D1 D2 D3 T1 T2]. pose proof (rounded_ge n) as W.
  assert (SG : forall d, length d = fold_right Nat.mul 1 [nr; f; n] -> exists a, read_into [1; nr; f; rounded n] (1 * nr * f) n (rounded n) d = Ok a /\
    holds a [0] [nr; f; n] d).
  { intros d L. destruct (sigma_ok 1 nr f n (rounded n) d 0 W) as (a & A & _ & V); [lia|cbn in L; lia|].
    exists a. split; [exact A|]. intros l I. unfold inside in I. idx I. cbn [app]. rewrite V by assumption. unfold item. f_equal. }
  assert (DG : forall d, length d = fold_right Nat.mul 1 [nr; f; n; n] ->
    exists a, read_into [1; nr; f; n; rounded n] (1 * nr * f * n) n (rounded n) d = Ok a /\ holds a [0] [nr; f; n; n] d).
  { intros d L. destruct (dsigma_ok 1 nr f n (rounded n) d 0 W) as (a & A & _ & V); [lia|cbn in L; lia|].
    exists a. split; [exact A|]. intros l I. unfold inside in I. idx I. cbn [app]. rewrite V by assumption. unfold item. f_equal. }
  destruct (SG _ (proj2 S1)) as (a1 & A1 & H1). destruct (SG _ (proj2 S2)) as (a2 & A2 & H2).
  destruct (gr_ok n (rounded n) sgr W) as (a3 & A3 & _ & H3); [destruct S3 as [_ L]; cbn in L; lia|].
  destruct (DG _ (proj2 D1)) as (a4 & A4 & H4). destruct (DG _ (proj2 D2)) as (a5 & A5 & H5).
  destruct (dgr_ok n (rounded n) dgr W) as (a6 & A6 & _ & H6); [destruct D3 as [_ L]; cbn in L; lia|].
  destruct (tau2_ok nr n (rounded n) ta N W) as (a7 & A7 & H7); [destruct T1 as [_ L]; cbn in L; lia|].
  destruct (tau2_ok nr n (rounded n) tl N W) as (a8 & A8 & H8); [destruct T2 as [_ L]; cbn in L; lia|].
  unfold read_xs. cbn [obind length].
  rewrite (extents_of _ _ _ _ 3 S1), (extents_of _ _ _ _ 4 D1) by (cbn; lia). cbn [obind].
  rewrite (open_of _ _ _ _ S1), (open_of _ _ _ _ S2), (open_of _ _ _ _ S3). cbn [obind]. rewrite A1, A2, A3. cbn [obind].
  rewrite (open_of _ _ _ _ D1), (open_of _ _ _ _ D2), (open_of _ _ _ _ D3). cbn [obind]. rewrite A4, A5, A6. cbn [obind].
  unfold read_tau_tables. rewrite (open_of _ _ _ _ T1), (open_of _ _ _ _ T2), (table_of _ _ _ _ T1). cbn [obind].
  rewrite (proj2 (Nat.leb_le (length tl) (n * n))) by (destruct T2 as [_ L]; cbn in L; lia). rewrite A7. cbn [obind]. rewrite A8. cbn [obind fst snd].
  eexists. split; [reflexivity|]. cbn [targets sigma_CC sigma_NC sigma_GR dNdE_CC dNdE_NC dNdE_GR tau_all tau_lep].
  split; [reflexivity|]. do 6 (split; [assumption|]). intros r i j Hr Hi Hj. split; [apply H7|apply H8]; assumption.
Qed.

(** the tables of a file of today *)
Record new_tables (g : dsets) (ts : list Z) (nr f n : nat) (scc snc sgr dcc dnc dgr ta tl : list R) : Prop := {
  w_targets : lookup "targets" g = Some (DInt ts); w_some : ts <> [];
  w_scc : has_table g "sigmacc" [length ts; nr; f; n] scc;
  w_snc : has_table g "sigmanc" [length ts; nr; f; n] snc;
  w_sgr : has_table g "sigmagr" [n] sgr;
  w_dcc : has_table g "dNdEcc" [length ts; nr; f; n; n] dcc;
  w_dnc : has_table g "dNdEnc" [length ts; nr; f; n; n] dnc;
  w_dgr : has_table g "dNdEgr" [n; n] dgr;
  w_ta : has_table g "dNdEtauall" [nr; n; n] ta;
  w_tl : has_table g "dNdEtaulep" [nr; n; n] tl }.

Theorem c100_new g ts nr f n scc snc sgr dcc dnc dgr ta tl : new_tables g ts nr f n scc snc sgr dcc dnc dgr ta tl ->
  exists s, read_xs false g nr f n = Ok s /\ targets s = ts /\
  holds (sigma_CC s) [] [length ts; nr; f; n] scc /\ holds (sigma_NC s) [] [length ts; nr; f; n] snc /\ holds (sigma_GR s) [] [n] sgr /\
  holds (dNdE_CC s) [] [length ts; nr; f; n; n] dcc /\ holds (dNdE_NC s) [] [length ts; nr; f; n; n] dnc /\ holds (dNdE_GR s) [] [n; n] dgr /\
  holds (tau_all s) [] [nr; n; n] ta /\ holds (tau_lep s) [] [nr; n; n] tl.
Proof.
  intros [TS NE S1 S2 S3 D1 D2 D3 T1 T2]. pose proof (rounded_ge n) as W. set (k := length ts) in *.
  assert (K : 0 < k) by (subst k; destruct ts; [congruence|cbn; lia]).
  assert (SG : forall d, length d = fold_right Nat.mul 1 [k; nr; f; n] -> exists a, read_into [k; nr; f; rounded n] (k * nr * f) n (rounded n) d = Ok a /\
    holds a [] [k; nr; f; n] d).
  { intros d L. cbn in L. destruct (sigma_ok k nr f n (rounded n) d 0 W K) as (a & A & _ & _); [lia|].
    exists a. split; [exact A|]. intros l I. unfold inside in I. idx I. cbn [app].
    destruct (sigma_ok k nr f n (rounded n) d x W) as (b & B & _ & V); [assumption|lia|].
    rewrite A in B. injection B as <-. apply V; assumption. }
  assert (DG : forall d, length d = fold_right Nat.mul 1 [k; nr; f; n; n] ->
    exists a, read_into [k; nr; f; n; rounded n] (k * nr * f * n) n (rounded n) d = Ok a /\ holds a [] [k; nr; f; n; n] d).
  { intros d L. cbn in L. destruct (dsigma_ok k nr f n (rounded n) d 0 W K) as (a & A & _ & _); [lia|].
    exists a. split; [exact A|]. intros l I. unfold inside in I. idx I. cbn [app].
    destruct (dsigma_ok k nr f n (rounded n) d x W) as (b & B & _ & V); [assumption|lia|].
    rewrite A in B. injection B as <-. apply V; assumption. }
  destruct (SG _ (proj2 S1)) as (a1 & A1 & H1). destruct (SG _ (proj2 S2)) as (a2 & A2 & H2).
  destruct (gr_ok n (rounded n) sgr W) as (a3 & A3 & _ & H3); [destruct S3 as [_ L]; cbn in L; lia|].
  destruct (DG _ (proj2 D1)) as (a4 & A4 & H4). destruct (DG _ (proj2 D2)) as (a5 & A5 & H5).
  destruct (dgr_ok n (rounded n) dgr W) as (a6 & A6 & _ & H6); [destruct D3 as [_ L]; cbn in L; lia|].
  destruct (tau3_ok nr n (rounded n) ta W) as (a7 & A7 & _ & H7); [destruct T1 as [_ L]; cbn in L; lia|].
  destruct (tau3_ok nr n (rounded n) tl W) as (a8 & A8 & _ & H8); [destruct T2 as [_ L]; cbn in L; lia|].
  unfold read_xs. rewrite TS. destruct ts as [|t ts]; [congruence|]. cbn [obind].
  rewrite (extents_of _ _ _ _ 4 S1), (extents_of _ _ _ _ 5 D1) by (cbn; lia). cbn [obind]. fold k.
  rewrite (open_of _ _ _ _ S1), (open_of _ _ _ _ S2), (open_of _ _ _ _ S3). cbn [obind]. rewrite A1, A2, A3. cbn [obind].
  rewrite (open_of _ _ _ _ D1), (open_of _ _ _ _ D2), (open_of _ _ _ _ D3). cbn [obind]. rewrite A4, A5, A6. cbn [obind].
  unfold read_tau_tables. rewrite (open_of _ _ _ _ T1), (open_of _ _ _ _ T2), (table_of _ _ _ _ T1). cbn [obind].
  rewrite A7. cbn [obind]. rewrite A8. cbn [obind fst snd].
  eexists. split; [reflexivity|]. cbn [targets sigma_CC sigma_NC sigma_GR dNdE_CC dNdE_NC dNdE_GR tau_all tau_lep].
  repeat split; assumption.
Qed.

(** On files FileModel reads, both models give the same tables. *)
Section Refine.
Variables B T PB PT : Type.
Variable xg : group PB PT.
Variable nv : Z.
Variable o : obj B T.
Let g := g_data xg.
Theorem c100_file o' : read_tables 0%R xg nv o = Ok o' ->
  (forall d dims, lookup "sigmacc" g = Some (DDbl dims d) -> length dims = 4) ->
  (forall d dims, lookup "dNdEcc" g = Some (DDbl dims d) -> length dims = 5) ->
  (forall d dims, lookup "dNdEtauall" g = Some (DDbl dims d) -> length dims = 3) ->
  read_xs false g (o_nrhos o) (o_flav o) (ne o) = Ok (o_tab o').
Proof.
  intros RD R4 R5 R3. unfold read_tables in RD. destruct (Z.ltb nv 101100); [discriminate|].
  fold g in RD. unfold read_xs. destruct (lookup "targets" g) as [[?|[|t ts]]|] eqn:TG; try discriminate. cbn [obind].
  set (nr := o_nrhos o) in *. set (f := o_flav o) in *. set (n := ne o) in *. set (w := rounded n) in *. set (k := length (t :: ts)) in *.
  assert (X : forall nm, get_dset xg nm = table g nm) by (intro nm; unfold get_dset, table; fold g; destruct (lookup nm g) as [[? ?|?]|]; reflexivity).
  rewrite !X in RD. clear X.
  assert (FI : forall sh kk d a, prod sh = kk * w -> fill_table 0%R sh kk n w d = Ok a -> read_into sh kk n w d = Ok a).
  { intros sh kk d a P F. unfold fill_table in F. destruct (Nat.eqb_spec (length d) (kk * n)) as [L|]; [|discriminate]. injection F as <-.
    unfold read_into. destruct (Nat.eqb_spec w n) as [E|E].
    - rewrite (proj2 (Nat.leb_le _ _)) by (rewrite P, L, E; lia). replace (prod sh - length d) with 0 by (rewrite P, L, E; lia).
      cbn [repeat]. rewrite app_nil_r. reflexivity.
    - rewrite L, Nat.eqb_refl. reflexivity. }
  unfold need in RD. unfold extents, read_tau_tables, open.
  destruct (table g "sigmacc") as [[e1 d1]|] eqn:E1; [|discriminate]. destruct (table g "dNdEcc") as [[e2 d2]|] eqn:E2; [|discriminate].
  destruct (table g "sigmanc") as [[e3 d3]|] eqn:E3; [|discriminate]. destruct (table g "sigmagr") as [[e4 d4]|] eqn:E4; [|discriminate].
  destruct (table g "dNdEnc") as [[e5 d5]|] eqn:E5; [|discriminate]. destruct (table g "dNdEgr") as [[e6 d6]|] eqn:E6; [|discriminate].
  destruct (table g "dNdEtauall") as [[e7 d7]|] eqn:E7; [|discriminate]. destruct (table g "dNdEtaulep") as [[e8 d8]|] eqn:E8; [|discriminate].
  cbn [snd] in RD. rewrite (R4 _ _ (table_has _ _ _ _ E1)), (R5 _ _ (table_has _ _ _ _ E2)). cbn [Nat.leb obind].
  destruct (fill_table 0%R [k; nr; f; w] (k * nr * f) n w d1) as [a1| |] eqn:A1; cbn [obind] in RD; try discriminate.
  destruct (fill_table 0%R [k; nr; f; w] (k * nr * f) n w d3) as [a2| |] eqn:A2; cbn [obind] in RD; try discriminate.
  destruct (fill_table 0%R [w] 1 n w d4) as [a3| |] eqn:A3; cbn [obind] in RD; try discriminate.
  destruct (fill_table 0%R [k; nr; f; n; w] (k * nr * f * n) n w d2) as [a4| |] eqn:A4; cbn [obind] in RD; try discriminate.
  destruct (fill_table 0%R [k; nr; f; n; w] (k * nr * f * n) n w d5) as [a5| |] eqn:A5; cbn [obind] in RD; try discriminate.
  destruct (fill_table 0%R [n; w] n n w d6) as [a6| |] eqn:A6; cbn [obind] in RD; try discriminate.
  destruct (fill_table 0%R [nr; n; w] (nr * n) n w d7) as [a7| |] eqn:A7; cbn [obind] in RD; try discriminate.
  destruct (fill_table 0%R [nr; n; w] (nr * n) n w d8) as [a8| |] eqn:A8; cbn [obind] in RD; try discriminate.
  injection RD as <-.
  apply FI in A1; [|cbn; lia]. apply FI in A2; [|cbn; lia]. apply FI in A3; [|cbn; lia]. apply FI in A4; [|cbn; lia].
  apply FI in A5; [|cbn; lia]. apply FI in A6; [|cbn; lia]. apply FI in A7; [|cbn; lia]. apply FI in A8; [|cbn; lia].
  rewrite A1. cbn [obind]. rewrite A2. cbn [obind]. rewrite A3. cbn [obind]. rewrite A4. cbn [obind]. rewrite A5. cbn [obind]. rewrite A6. cbn [obind].
  pose proof (R3 _ _ (table_has _ _ _ _ E7)) as L7. destruct e7 as [|? [|? [|? [|? ?]]]]; cbn in L7; try lia.
  fold w. rewrite A7. cbn [obind]. rewrite A8. cbn [obind fst snd]. reflexivity.
Qed.
End Refine.
Arguments c100_file {B T PB PT}.

(** ** Files that do not fit *)
Ltac runs := repeat (match goal with
  | |- context [obind ?x _] => lazymatch x with context [obind _ _] => fail | Ok _ => cbn [obind] | Throw _ => cbn [obind] | UB => cbn [obind] | _ => destruct x eqn:?; cbn [obind] end
  end); try discriminate.

Definition names : list string :=
  ["sigmacc"; "sigmanc"; "sigmagr"; "dNdEcc"; "dNdEnc"; "dNdEgr"; "dNdEtauall"; "dNdEtaulep"]%string.
(** A file without one of the datasets is not read, whatever else is in it. *)
Theorem c100_missing old g nr f n nm : In nm names -> lookup nm g = None -> forall s, read_xs old g nr f n <> Ok s.
Proof.
  intros I L s. assert (O : open g nm = Throw RuntimeError) by (unfold open, table; rewrite L; reflexivity).
  unfold read_xs, read_tau_tables. cbn [In names] in I.
  repeat (destruct I as [<-|I]; [rewrite O; runs|]). destruct I.
Qed.

(** The grid is padded: a total cross section of another number of items is noticed. *)
Theorem c100_padded (old : bool) g nr f n ts scc snc sgr dims : rounded n <> n ->
  (if old then ts = [81%Z] else ts <> [] /\ lookup "targets" g = Some (DInt ts)) ->
  lookup "sigmacc" g = Some (DDbl dims scc) -> length dims <= (if old then 3 else 4) ->
  (forall d e, lookup "dNdEcc" g = Some (DDbl d e) -> length d <= (if old then 4 else 5)) ->
  open g "sigmanc" = Ok snc -> open g "sigmagr" = Ok sgr ->
  length scc <> length ts * nr * f * n -> read_xs old g nr f n = Throw RuntimeError.
Proof.
  intros P TS S R D N G L. unfold read_xs.
  assert (T : table g "sigmacc" = Some (dims, scc)) by (unfold table; rewrite S; reflexivity).
  assert (E1 : extents g "sigmacc" (if old then 3 else 4) = Ok tt) by (unfold extents; rewrite T, (proj2 (Nat.leb_le _ _) R); reflexivity).
  assert (E2 : extents g "dNdEcc" (if old then 4 else 5) = Ok tt).
  { unfold extents. destruct (table g "dNdEcc") as [[d e]|] eqn:Q; [|reflexivity]. rewrite (proj2 (Nat.leb_le _ _) (D _ _ (table_has _ _ _ _ Q))). reflexivity. }
  assert (O1 : open g "sigmacc" = Ok scc) by (unfold open; rewrite T; reflexivity).
  assert (RI : read_into [length ts; nr; f; rounded n] (length ts * nr * f) n (rounded n) scc = Throw RuntimeError).
  { unfold read_into. destruct (Nat.eqb_spec (rounded n) n); [contradiction|]. destruct (Nat.eqb_spec (length scc) (length ts * nr * f * n)); [contradiction|reflexivity]. }
  destruct old.
  - subst ts. cbn [obind]. rewrite E1, E2, O1, N, G. cbn [obind]. rewrite RI. reflexivity.
  - destruct TS as [NE TS]. rewrite TS. destruct ts as [|t ts]; [congruence|]. cbn [obind]. rewrite E1, E2, O1, N, G. cbn [obind]. rewrite RI. reflexivity.
Qed.

(** Refuted: without padding it is not.  Too short a table is read, and where it ends there are zeros: no interaction
    at those energies ... *)
Theorem c100_short_refuted g nr f n scc snc sgr dcc dnc dgr ta tl dims : rounded n = n -> 0 < nr ->
  old_tables g nr f n scc snc sgr dcc dnc dgr ta tl -> forall short, length short < nr * f * n -> length dims <= 3 ->
  exists s, read_xs true (("sigmacc"%string, DDbl dims short) :: g) nr f n = Ok s /\
  forall r j e, r < nr -> j < f -> e < n -> length short <= (r * f + j) * n + e -> cell (sigma_CC s) [0; r; j; e] = 0%R.
Proof.
  intros P N [S1 S2 S3 D1 D2 D3 T1 T2] short SH DM. set (g' := (_ :: g)).
  assert (S1' : table g' "sigmacc" = Some (dims, short)) by reflexivity.
  assert (K : forall nm d e, String.eqb nm "sigmacc" = false -> has_table g nm d e -> has_table g' nm d e).
  { intros nm d e NE [L Q]. split; [|exact Q]. unfold g'. cbn [lookup]. rewrite NE. exact L. }
  apply K in S2; [|reflexivity]. apply K in S3; [|reflexivity]. apply K in D1; [|reflexivity]. apply K in D2; [|reflexivity].
  apply K in D3; [|reflexivity]. apply K in T1; [|reflexivity]. apply K in T2; [|reflexivity]. clear K.
  assert (E1 : extents g' "sigmacc" 3 = Ok tt) by (unfold extents; rewrite S1', (proj2 (Nat.leb_le _ _) DM); reflexivity).
  assert (O1 : open g' "sigmacc" = Ok short) by reflexivity. clearbody g'.
  pose proof (rounded_ge n) as W.
  assert (Z : forall sh k d, length d <= prod sh -> exists a, read_into sh k n (rounded n) d = Ok a).
  { intros sh k d L. unfold read_into. rewrite P, Nat.eqb_refl, (proj2 (Nat.leb_le _ _) L). eexists. reflexivity. }
  assert (A1 : read_into [1; nr; f; rounded n] (1 * nr * f) n (rounded n) short =
    Ok (Arr [1; nr; f; rounded n] (short ++ repeat 0%R (prod [1; nr; f; rounded n] - length short)))).
  { unfold read_into. rewrite P, Nat.eqb_refl, (proj2 (Nat.leb_le _ _)) by (cbn; lia). reflexivity. }
  destruct (Z [1; nr; f; rounded n] (1 * nr * f) snc) as [a2 A2]; [destruct S2 as [_ L]; cbn in L; unfold prod; cbn [fold_right]; rewrite P; lia|].
  destruct (Z [rounded n] 1 sgr) as [a3 A3]; [destruct S3 as [_ L]; cbn in L; unfold prod; cbn [fold_right]; rewrite P; lia|].
  destruct (Z [1; nr; f; n; rounded n] (1 * nr * f * n) dcc) as [a4 A4]; [destruct D1 as [_ L]; cbn in L; unfold prod; cbn [fold_right]; rewrite P; lia|].
  destruct (Z [1; nr; f; n; rounded n] (1 * nr * f * n) dnc) as [a5 A5]; [destruct D2 as [_ L]; cbn in L; unfold prod; cbn [fold_right]; rewrite P; lia|].
  destruct (Z [n; rounded n] n dgr) as [a6 A6]; [destruct D3 as [_ L]; cbn in L; unfold prod; cbn [fold_right]; rewrite P; lia|].
  destruct (tau2_ok nr n (rounded n) ta N W) as (a7 & A7 & _); [destruct T1 as [_ L]; cbn in L; lia|].
  destruct (tau2_ok nr n (rounded n) tl N W) as (a8 & A8 & _); [destruct T2 as [_ L]; cbn in L; lia|].
  unfold read_xs. cbn [obind length]. rewrite E1, (extents_of _ _ _ _ 4 D1) by (cbn; lia). cbn [obind].
  rewrite O1, (open_of _ _ _ _ S2), (open_of _ _ _ _ S3). cbn [obind]. rewrite A1, A2, A3. cbn [obind].
  rewrite (open_of _ _ _ _ D1), (open_of _ _ _ _ D2), (open_of _ _ _ _ D3). cbn [obind]. rewrite A4, A5, A6. cbn [obind].
  unfold read_tau_tables. rewrite (open_of _ _ _ _ T1), (open_of _ _ _ _ T2), (table_of _ _ _ _ T1). cbn [obind].
  rewrite (proj2 (Nat.leb_le (length tl) (n * n))) by (destruct T2 as [_ L]; cbn in L; lia). rewrite A7. cbn [obind]. rewrite A8. cbn [obind fst snd].
  eexists. split; [reflexivity|]. intros r j e Hr Hj He LE. unfold cell. cbn [sigma_CC a_shape a_data]. rewrite P. cbn [offset fold_right].
  rewrite app_nth2 by lia. apply nth_repeat.
Qed.
(** ... and too long a table is written past the end of the array. *)
Theorem c100_long_refuted g nr f n scc snc sgr dims : rounded n = n ->
  lookup "sigmacc" g = Some (DDbl dims scc) -> length dims <= 3 ->
  (forall d e, lookup "dNdEcc" g = Some (DDbl d e) -> length d <= 4) ->
  open g "sigmanc" = Ok snc -> open g "sigmagr" = Ok sgr -> nr * f * n < length scc -> read_xs true g nr f n = UB.
Proof.
  intros P S R D N G L. unfold read_xs. cbn [obind length].
  assert (T : table g "sigmacc" = Some (dims, scc)) by (unfold table; rewrite S; reflexivity).
  unfold extents at 1. rewrite T, (proj2 (Nat.leb_le _ _) R). cbn [obind].
  assert (E2 : extents g "dNdEcc" 4 = Ok tt).
  { unfold extents. destruct (table g "dNdEcc") as [[d e]|] eqn:Q; [|reflexivity]. rewrite (proj2 (Nat.leb_le _ _) (D _ _ (table_has _ _ _ _ Q))). reflexivity. }
  rewrite E2. cbn [obind]. unfold open at 1. rewrite T. cbn [obind]. rewrite N, G. cbn [obind].
  unfold read_into at 1. rewrite P, Nat.eqb_refl. rewrite (proj2 (Nat.leb_gt _ _)) by (cbn; lia). reflexivity.
Qed.
(** Refuted: a table with an index for the target in a file that says it is older than 1.11: its extents are
    written past the end of the buffer for three. *)
Theorem c100_rank_refuted g nr f n dims d : lookup "sigmacc" g = Some (DDbl dims d) -> 4 <= length dims -> read_xs true g nr f n = UB.
Proof.
  intros L R. unfold read_xs. cbn [obind]. unfold extents at 1, table. rewrite L, (proj2 (Nat.leb_gt _ _)) by lia. reflexivity.
Qed.
(** Spectra of the tau of any other rank than two or three are refused. *)
Theorem c100_tau_rank old g nr f n dims d s : lookup "dNdEtauall" g = Some (DDbl dims d) -> length dims <> 2 -> length dims <> 3 ->
  read_xs old g nr f n <> Ok s.
Proof.
  intros L R2 R3. unfold read_xs, read_tau_tables. assert (T : table g "dNdEtauall" = Some (dims, d)) by (unfold table; rewrite L; reflexivity).
  rewrite T. destruct dims as [|? [|? [|? [|? ?]]]]; cbn in R2, R3; try lia; runs.
Qed.

(** A file of today without targets is refused. *)
Theorem c100_targets g nr f n : (forall ts, lookup "targets" g = Some (DInt ts) -> ts = []) -> read_xs false g nr f n = Throw RuntimeError.
Proof.
  intro H. unfold read_xs. destruct (lookup "targets" g) as [[?|[|t ts]]|]; try reflexivity. specialize (H _ eq_refl). discriminate.
Qed.
(** Refuted: old spectra of leptonic decays are read into a buffer of the size of those of all decays; longer ones overrun it. *)
Theorem c100_lep_refuted g nr n d0 d1 ta dims tl : lookup "dNdEtauall" g = Some (DDbl [d0; d1] ta) ->
  lookup "dNdEtaulep" g = Some (DDbl dims tl) -> d0 * d1 < length tl -> read_tau_tables g nr n = UB.
Proof.
  intros A L H. unfold read_tau_tables, open, table. rewrite A, L. cbn [obind]. rewrite (proj2 (Nat.leb_gt _ _) H). reflexivity.
Qed.

(** ** Cases *)
Definition case_old : dsets :=
  [("sigmacc", DDbl [2; 1; 2] [1; 2; 3; 4]%R); ("sigmanc", DDbl [2; 1; 2] [5; 6; 7; 8]%R); ("sigmagr", DDbl [2] [9; 10]%R);
   ("dNdEcc", DDbl [2; 1; 2; 2] [0; 0; 1; 0; 0; 0; 2; 0]%R); ("dNdEnc", DDbl [2; 1; 2; 2] [0; 0; 3; 0; 0; 0; 4; 0]%R);
   ("dNdEgr", DDbl [2; 2] [0; 0; 5; 0]%R); ("dNdEtauall", DDbl [2; 2] [0; 0; 6; 0]%R); ("dNdEtaulep", DDbl [2; 2] [0; 0; 7; 0]%R)]%string.
Example c100_old_case : old_tables case_old 2 1 2 [1; 2; 3; 4]%R [5; 6; 7; 8]%R [9; 10]%R [0; 0; 1; 0; 0; 0; 2; 0]%R [0; 0; 3; 0; 0; 0; 4; 0]%R
  [0; 0; 5; 0]%R [0; 0; 6; 0]%R [0; 0; 7; 0]%R /\
  exists s, read_xs true case_old 2 1 2 = Ok s /\ cell (sigma_CC s) [0; 1; 0; 0] = 3%R /\ cell (tau_all s) [1; 1; 0] = 6%R.
Proof. split; [constructor; split; reflexivity|]. eexists. split; [reflexivity|]. split; reflexivity. Qed.
Example c100_new_case : exists g, new_tables g [2212; 2112]%Z 1 1 1 [1; 2]%R [3; 4]%R [5]%R [6; 7]%R [8; 9]%R [10]%R [11]%R [12]%R /\
  exists s, read_xs false g 1 1 1 = Ok s /\ cell (sigma_CC s) [1; 0; 0; 0] = 2%R.
Proof.
  exists [("targets", DInt [2212; 2112]%Z); ("sigmacc", DDbl [2; 1; 1; 1] [1; 2]%R); ("sigmanc", DDbl [2; 1; 1; 1] [3; 4]%R); ("sigmagr", DDbl [1] [5]%R);
   ("dNdEcc", DDbl [2; 1; 1; 1; 1] [6; 7]%R); ("dNdEnc", DDbl [2; 1; 1; 1; 1] [8; 9]%R);
   ("dNdEgr", DDbl [1; 1] [10]%R); ("dNdEtauall", DDbl [1; 1; 1] [11]%R); ("dNdEtaulep", DDbl [1; 1; 1] [12]%R)]%string.
  split; [constructor; first [discriminate|reflexivity|split; reflexivity]|]. eexists. split; reflexivity.
Qed.
(** an object with two energies and the file read into it *)
Example c100_file_case : exists (xg : group nat nat) o', let o := ex_obj Neutrino [1; 2]%R BInter (fun _ => 9%R) true false 3 in
  read_tables 0%R xg 101100 o = Ok o' /\ read_xs false (g_data xg) (o_nrhos o) (o_flav o) (ne o) = Ok (o_tab o') /\
  cell (sigma_CC (o_tab o')) [0; 0; 2; 1] = 1%R.
Proof.
  exists (Group [] [("targets", DInt [81]%Z); ("sigmacc", DDbl [1; 1; 3; 2] (repeat 1%R 6)); ("sigmanc", DDbl [1; 1; 3; 2] (repeat 1%R 6));
    ("sigmagr", DDbl [2] [5; 6]%R); ("dNdEcc", DDbl [1; 1; 3; 2; 2] (repeat 1%R 12)); ("dNdEnc", DDbl [1; 1; 3; 2; 2] (repeat 1%R 12));
    ("dNdEgr", DDbl [2; 2] (repeat 1%R 4)); ("dNdEtauall", DDbl [1; 2; 2] (repeat 1%R 4)); ("dNdEtaulep", DDbl [1; 2; 2] (repeat 1%R 4))]%string None None).
  eexists. split; [cbn; reflexivity|]. split; [reflexivity|]. reflexivity.
Qed.
Example c100_padded_case : rounded 2 <> 2 /\ read_xs true (("sigmacc"%string, DDbl [2; 1; 1] [1; 2]%R) :: case_old) 2 1 2 = Throw RuntimeError.
Proof. split; [cbv; discriminate|]. apply (c100_padded true _ 2 1 2 [81%Z] [1; 2]%R [5; 6; 7; 8]%R [9; 10]%R [2; 1; 1]); try reflexivity; try (cbn; lia);
  try (intros ? ? E; injection E as <- _; cbn; lia); cbv; discriminate.
Qed.
(** four energies, tables for three: nothing is noticed *)
Definition case_four : dsets :=
  [("sigmacc", DDbl [1; 1; 4] [1; 2; 3; 4]%R); ("sigmanc", DDbl [1; 1; 4] [5; 6; 7; 8]%R); ("sigmagr", DDbl [4] [9; 10; 11; 12]%R);
   ("dNdEcc", DDbl [1; 1; 4; 4] (repeat 1%R 16)); ("dNdEnc", DDbl [1; 1; 4; 4] (repeat 1%R 16));
   ("dNdEgr", DDbl [4; 4] (repeat 1%R 16)); ("dNdEtauall", DDbl [4; 4] (repeat 1%R 16)); ("dNdEtaulep", DDbl [4; 4] (repeat 1%R 16))]%string.
Example c100_short_case : exists s, read_xs true (("sigmacc"%string, DDbl [1; 1; 3] [1; 2; 3]%R) :: case_four) 1 1 4 = Ok s /\
  cell (sigma_CC s) [0; 0; 0; 3] = 0%R.
Proof.
  destruct (c100_short_refuted case_four 1 1 4 [1; 2; 3; 4]%R [5; 6; 7; 8]%R [9; 10; 11; 12]%R (repeat 1%R 16) (repeat 1%R 16) (repeat 1%R 16)
    (repeat 1%R 16) (repeat 1%R 16) [1; 1; 3] eq_refl ltac:(lia) ltac:(constructor; split; reflexivity) [1; 2; 3]%R ltac:(cbn; lia) ltac:(cbn; lia)) as (s & R & V).
  exists s. split; [exact R|]. apply V; cbn; lia.
Qed.
Example c100_long_case : read_xs true (("sigmacc"%string, DDbl [1; 1; 5] [1; 2; 3; 4; 5]%R) :: case_four) 1 1 4 = UB.
Proof. reflexivity. Qed.
Example c100_missing_case : lookup "sigmagr" (skipn 3 case_four) = None /\ In "sigmagr"%string names.
Proof. split; [reflexivity|cbn; tauto]. Qed.
Example c100_targets_case : read_xs false case_four 1 1 4 = Throw RuntimeError /\ read_xs false (("targets"%string, DInt []) :: case_four) 1 1 4 = Throw RuntimeError.
Proof. split; apply c100_targets; intros ts E; [discriminate E|injection E as <-; reflexivity]. Qed.
Example c100_lep_case : read_xs true (("dNdEtaulep"%string, DDbl [5; 5] (repeat 1%R 25)) :: case_four) 1 1 4 = UB.
Proof. reflexivity. Qed.
Example c100_rank_case : read_xs true (("sigmacc"%string, DDbl [1; 1; 1; 4] [1; 2; 3; 4]%R) :: case_four) 1 1 4 = UB.
Proof. reflexivity. Qed.
Example c100_tau_rank_case : read_xs true (("dNdEtauall"%string, DDbl [16] (repeat 1%R 16)) :: case_four) 1 1 4 = Throw RuntimeError.
Proof. reflexivity. Qed.

Print Assumptions c100_old.
Print Assumptions c100_new.
Print Assumptions c100_file.
Print Assumptions c100_missing.
Print Assumptions c100_padded.
Print Assumptions c100_short_refuted.
Print Assumptions c100_long_refuted.
Print Assumptions c100_rank_refuted.
Print Assumptions c100_tau_rank.
Print Assumptions c100_targets.
Print Assumptions c100_lep_refuted.
