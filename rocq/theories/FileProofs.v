(** Lemmas about state files (FileModel). *)
From Coq Require Import Reals Ascii String DecimalString DecimalNat DecimalFacts List Arith Bool ZArith Lia Lra.
From Verif Require Import Err StructModel CMatrix FlavorModel FileModel.
Import ListNotations.
Open Scope R_scope.

(** ** Labels *)

(** [label] undone: the length tells how many digits each number has *)
Definition num (s : string) : option nat := option_map Nat.of_uint (NilEmpty.uint_of_string s).
Definition decode (s : string) : option (nat * nat) :=
  let cut := match String.length s with 2%nat => 1%nat | 3%nat => 1%nat | _ => 2%nat end in
  match num (substring 0 cut s), num (substring cut (String.length s - cut) s) with
  | Some (S a), Some (S b) => Some (a, b)
  | _, _ => None
  end.

Definition two_digits (i j : nat) : string := (dec (S i) ++ dec (S j))%string.

Lemma in_pairs n i j : In (i, j) (pairs n) <-> (i < j < n)%nat.
Proof.
  unfold pairs. rewrite in_flat_map. split.
  - intros [a [Ha Hb]]. apply in_map_iff in Hb. destruct Hb as [b [E Hb]]. injection E as -> ->.
    apply in_seq in Ha, Hb. lia.
  - intros H. exists i. split; [apply in_seq; lia|]. apply in_map_iff. exists j. split; [reflexivity|].
    apply in_seq. lia.
Qed.

Lemma decode_all : forallb (fun p => match decode (two_digits (fst p) (snd p)) with
    | Some q => Nat.eqb (fst q) (fst p) && Nat.eqb (snd q) (snd p) | None => false end) (pairs 99) = true.
Proof. vm_compute. reflexivity. Qed.

Lemma decode_label i j : (i < j < 99)%nat -> decode (two_digits i j) = Some (i, j).
Proof.
  intro H. pose proof decode_all as D. rewrite forallb_forall in D.
  specialize (D (i, j) (proj2 (in_pairs 99 i j) H)). cbn [fst snd] in D.
  destruct (decode (two_digits i j)) as [[a b]|]; [|discriminate]. cbn [fst snd] in D.
  apply andb_true_iff in D. destruct D as [D1 D2]. apply Nat.eqb_eq in D1, D2. subst. reflexivity.
Qed.

Lemma two_digits_inj i j i' j' : (i < j < 99)%nat -> (i' < j' < 99)%nat ->
  two_digits i j = two_digits i' j' -> i = i' /\ j = j'.
Proof.
  intros H H' E. pose proof (decode_label i j H) as D. rewrite E, (decode_label i' j' H') in D.
  injection D as -> ->. split; reflexivity.
Qed.

Lemma dec_inj a b : dec a = dec b -> a = b.
Proof.
  unfold dec. intro E. assert (U : Nat.to_uint a = Nat.to_uint b).
  { pose proof (NilEmpty.usu (Nat.to_uint a)) as A. rewrite E, NilEmpty.usu in A. injection A as A. symmetry. exact A. }
  apply (f_equal Nat.of_uint) in U. rewrite !Unsigned.of_to in U. exact U.
Qed.

Lemma append_inj_r (s a b : string) : (a ++ s)%string = (b ++ s)%string -> a = b.
Proof.
  assert (L : forall x y, String.length (x ++ y)%string = (String.length x + String.length y)%nat).
  { induction x as [|c x IH]; intro y; cbn; [reflexivity|]. rewrite IH. reflexivity. }
  revert b. induction a as [|c a IH]; intros [|d b] E; cbn in E.
  - reflexivity.
  - exfalso. apply (f_equal String.length) in E. cbn in E. rewrite L in E. lia.
  - exfalso. apply (f_equal String.length) in E. cbn in E. rewrite L in E. lia.
  - injection E as -> E. rewrite (IH _ E). reflexivity.
Qed.

Lemma append_inj_l (s a b : string) : (s ++ a)%string = (s ++ b)%string -> a = b.
Proof. induction s as [|c s IH]; cbn; intro E; [exact E|]. injection E as E. apply IH. exact E. Qed.

Lemma angle_label_inj i j i' j' : (i < j < 99)%nat -> (i' < j' < 99)%nat ->
  angle_label i j = angle_label i' j' -> i = i' /\ j = j'.
Proof. intros H H' E. apply two_digits_inj; try assumption. unfold angle_label in E. apply append_inj_l in E. exact E. Qed.
Lemma phase_label_inj i j i' j' : (i < j < 99)%nat -> (i' < j' < 99)%nat ->
  phase_label i j = phase_label i' j' -> i = i' /\ j = j'.
Proof. intros H H' E. apply two_digits_inj; try assumption. unfold phase_label in E. apply append_inj_l in E. exact E. Qed.
Lemma dm_label_inj i i' : dm_label i = dm_label i' -> i = i'.
Proof.
  unfold dm_label. intro E. apply append_inj_l in E. apply append_inj_r in E. apply dec_inj in E. lia.
Qed.

(** ** Attributes *)
Lemma set_all_rev l : set_all l = rev l.
Proof.
  unfold set_all. assert (G : forall acc, fold_left (fun acc a => a :: acc) l acc = rev l ++ acc).
  { induction l as [|a l IH]; intro acc; cbn [fold_left rev app]; [reflexivity|].
    rewrite IH, <- app_assoc. reflexivity. }
  rewrite G, app_nil_r. reflexivity.
Qed.

Lemma look_attr_in o n l a : In ((o, n), a) l -> (forall a', In ((o, n), a') l -> a' = a) ->
  look_attr o n l = Some a.
Proof.
  induction l as [|[[o' n'] b] l IH]; intros Hin Hu; [contradiction|].
  cbn [look_attr fst snd]. destruct (String.eqb_spec o o') as [->|Ho]; cbn [andb].
  - destruct (String.eqb_spec n n') as [->|Hn].
    + rewrite (Hu b (or_introl eq_refl)). reflexivity.
    + apply IH. * destruct Hin as [E|H]; [injection E as -> _; contradiction|exact H].
      * intros a' H. apply Hu. right. exact H.
  - apply IH. * destruct Hin as [E|H]; [injection E as -> _; contradiction|exact H].
    * intros a' H. apply Hu. right. exact H.
Qed.

Lemma look_set o n l a : In ((o, n), a) l -> (forall a', In ((o, n), a') l -> a' = a) ->
  look_attr o n (set_all l) = Some a.
Proof.
  intros Hin Hu. rewrite set_all_rev. apply look_attr_in.
  - apply in_rev in Hin. exact Hin.
  - intros a' H. apply Hu. apply in_rev. exact H.
Qed.

(** ** Flat data *)
Lemma flat_length {A} (f : nat -> nat -> A) m l :
  length (flat_map (fun i => map (f i) (seq 0 m)) l) = (length l * m)%nat.
Proof.
  induction l as [|i l IH]; [reflexivity|]. cbn [flat_map]. rewrite app_length, map_length, seq_length, IH.
  cbn [length]. lia.
Qed.

Lemma nth_flat {A} (f : nat -> nat -> A) m n s i j d : (i < n)%nat -> (j < m)%nat ->
  nth (i * m + j) (flat_map (fun i => map (f i) (seq 0 m)) (seq s n)) d = f (s + i)%nat j.
Proof.
  revert s i. induction n as [|n IH]; intros s i Hi Hj; [lia|].
  cbn [seq flat_map]. destruct i as [|i].
  - rewrite Nat.mul_0_l, Nat.add_0_l, app_nth1 by (rewrite map_length, seq_length; lia).
    rewrite (nth_indep _ d (f s 0%nat)) by (rewrite map_length, seq_length; lia).
    rewrite map_nth, seq_nth by lia. rewrite Nat.add_0_r. f_equal.
  - rewrite app_nth2; rewrite map_length, seq_length; [|nia].
    replace (S i * m + j - m)%nat with (i * m + j)%nat by nia.
    rewrite IH by lia. f_equal. lia.
Qed.

(** ** Tables *)
Section Tables.
Context {A : Type}.
Lemma rows_length k w (d : list A) : length (rows k w d) = k.
Proof. revert d. induction k as [|k IH]; intro d; cbn [rows length]; [reflexivity|]. rewrite IH. reflexivity. Qed.

Lemma firstn_nth (n i : nat) (l : list A) d : (i < n)%nat -> nth i (firstn n l) d = nth i l d.
Proof.
  revert i l. induction n as [|n IH]; intros i l H; [lia|].
  destruct l as [|a l]; cbn [firstn]; [destruct i; reflexivity|].
  destruct i as [|i]; cbn [nth]; [reflexivity|]. apply IH. lia.
Qed.
Lemma skipn_nth (n i : nat) (l : list A) d : nth i (skipn n l) d = nth (n + i) l d.
Proof.
  revert l. induction n as [|n IH]; intro l; [reflexivity|].
  destruct l as [|a l]; cbn [skipn]; [destruct i, n; reflexivity|]. rewrite IH. reflexivity.
Qed.

(** every row cut to [n] items *)
Lemma cut_length n w k (d : list A) : (n <= w)%nat -> length d = (k * w)%nat ->
  length (flat_map (firstn n) (rows k w d)) = (k * n)%nat.
Proof.
  intros Hn. revert d. induction k as [|k IH]; intros d L; [reflexivity|].
  cbn [rows flat_map]. rewrite app_length, IH by (rewrite skipn_length; lia).
  rewrite firstn_length, firstn_length. lia.
Qed.
Lemma cut_nth n w k (d : list A) r i x : (n <= w)%nat -> length d = (k * w)%nat -> (r < k)%nat -> (i < n)%nat ->
  nth (r * n + i) (flat_map (firstn n) (rows k w d)) x = nth (r * w + i) d x.
Proof.
  intros Hn. revert d r. induction k as [|k IH]; intros d r L Hr Hi; [lia|].
  assert (Lw : (w <= length d)%nat) by lia.
  cbn [rows flat_map]. assert (F : length (firstn n (firstn w d)) = n) by (rewrite !firstn_length; lia).
  destruct r as [|r].
  - rewrite app_nth1 by (rewrite F; lia). rewrite !firstn_nth by lia. f_equal; lia.
  - rewrite app_nth2 by (rewrite F; lia). rewrite F.
    replace (S r * n + i - n)%nat with (r * n + i)%nat by lia.
    rewrite IH by (rewrite ?skipn_length; lia). rewrite skipn_nth. f_equal. lia.
Qed.

(** every row of [n] items filled up to [w] *)
Lemma fill_length n w k (d : list A) p : (n <= w)%nat -> length d = (k * n)%nat ->
  length (flat_map (fun r => r ++ repeat p (w - n)) (rows k n d)) = (k * w)%nat.
Proof.
  intros Hn. revert d. induction k as [|k IH]; intros d L; [reflexivity|].
  cbn [rows flat_map]. rewrite app_length, IH by (rewrite skipn_length; lia).
  rewrite app_length, firstn_length, repeat_length. lia.
Qed.
Lemma fill_nth n w k (d : list A) p r i x : (n <= w)%nat -> length d = (k * n)%nat -> (r < k)%nat -> (i < n)%nat ->
  nth (r * w + i) (flat_map (fun r => r ++ repeat p (w - n)) (rows k n d)) x = nth (r * n + i) d x.
Proof.
  intros Hn. revert d r. induction k as [|k IH]; intros d r L Hr Hi; [lia|].
  assert (Ln : (n <= length d)%nat) by lia.
  cbn [rows flat_map]. assert (F : length (firstn n d) = n) by (rewrite firstn_length; lia).
  assert (F2 : length (firstn n d ++ repeat p (w - n)) = w) by (rewrite app_length, repeat_length, F; lia).
  destruct r as [|r].
  - rewrite app_nth1 by (rewrite F2; lia). rewrite app_nth1 by (rewrite F; lia). rewrite firstn_nth by lia. f_equal; lia.
  - rewrite app_nth2 by (rewrite F2; lia). rewrite F2.
    replace (S r * w + i - w)%nat with (r * w + i)%nat by lia.
    rewrite IH by (rewrite ?skipn_length; lia). rewrite skipn_nth. f_equal. lia.
Qed.
End Tables.

Lemma rounded_ge n : (n <= rounded n)%nat.
Proof. unfold rounded. pose proof (Nat.div_mod (n + 3) 4 ltac:(lia)). pose proof (Nat.mod_upper_bound (n + 3) 4 ltac:(lia)). lia. Qed.
Lemma rounded_mult n : exists q, rounded n = (4 * q)%nat.
Proof. unfold rounded. eauto. Qed.

(** what is read of a table is what was written, without the padding *)
Lemma table_back pad sh (whole : bool) k n w (d : list R) : (n <= w)%nat -> (whole = true -> w = n) ->
  length d = (k * w)%nat ->
  exists a', fill_table pad sh k n w (whole_or_rows whole k n w d) = Ok a' /\ a_shape a' = sh /\
    length (a_data a') = (k * w)%nat /\
    forall r i, (r < k)%nat -> (i < n)%nat -> nth (r * w + i) (a_data a') 0 = nth (r * w + i) d 0.
Proof.
  intros Hn Hw L. unfold fill_table, whole_or_rows.
  set (u := if whole then firstn (k * n) d else flat_map (firstn n) (rows k w d)).
  assert (U : length u = (k * n)%nat /\ forall r i, (r < k)%nat -> (i < n)%nat -> nth (r * n + i) u 0 = nth (r * w + i) d 0).
  { unfold u. destruct whole.
    - rewrite (Hw eq_refl) in *. split; [rewrite firstn_length; lia|]. intros r i Hr Hi. apply firstn_nth. nia.
    - split; [apply cut_length; assumption|]. intros r i Hr Hi. apply cut_nth with (k := k); assumption. }
  destruct U as [U1 U2]. rewrite (proj2 (Nat.eqb_eq _ _) U1).
  eexists. split; [reflexivity|]. split; [reflexivity|]. cbn [a_data].
  destruct (Nat.eqb_spec w n) as [E|E].
  - split; [rewrite U1, E; reflexivity|]. intros r i Hr Hi. rewrite <- (U2 r i Hr Hi), E. reflexivity.
  - split; [apply fill_length; assumption|]. intros r i Hr Hi. rewrite fill_nth with (k := k) by assumption.
    apply U2; assumption.
Qed.
