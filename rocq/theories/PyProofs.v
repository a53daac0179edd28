(** Lemmas about PyModel.v. *)
From Coq Require Import Reals List Arith ZArith Bool Lia.
From Verif Require Import Err MarrayModel MarraySpec MarrayProofs PyModel.
Import ListNotations.

Lemma coords_unrank sh : forall k, coords sh k = unrank sh k.
Proof. induction sh as [|e sh IH]; intros k; cbn; [reflexivity|]. now rewrite IH. Qed.

Lemma prod_pos_cons e sh : prod (e :: sh) <> 0 -> e <> 0 /\ prod sh <> 0.
Proof. cbn. nia. Qed.

Lemma c_walk_spec item : forall sh st, length st = length sh -> fst (c_walk item sh st) = true ->
  snd (c_walk item sh st) = (item * Z.of_nat (prod sh))%Z
  /\ forall idx, valid sh idx -> offset st idx = (item * Z.of_nat (rowmajor sh idx))%Z.
Proof.
  induction sh as [|e sh IH]; intros [|s st] L H; cbn in L; try lia.
  - split; [cbn; lia|]. intros [|i idx] V; cbn in V; [cbn; lia|tauto].
  - cbn in H |- *. destruct (c_walk item sh st) as [ok sd] eqn:W.
    specialize (IH st (f_equal pred L)). rewrite W in IH. cbn [fst snd] in IH.
    destruct (Nat.eqb_spec e 1) as [->|N].
    + cbn in H. destruct (IH H) as [A B]. split; [cbn; rewrite A; f_equal; lia|].
      intros [|i idx] V; cbn in V; [tauto|]. destruct V as [Vi V]. assert (i = 0) by lia. subst i. cbn. rewrite (B _ V). lia.
    + cbn in H. apply andb_true_iff in H as [O E]. apply Z.eqb_eq in E. destruct (IH O) as [A B]. split.
      * cbn. rewrite A. lia.
      * intros [|i idx] V; cbn in V; [tauto|]. destruct V as [Vi V]. cbn. rewrite (B _ V), E, A. rewrite !Nat2Z.inj_add, !Nat2Z.inj_mul. ring.
Qed.

Lemma c_strides_offset item : forall sh idx, valid sh idx ->
  offset (c_strides item sh) idx = (item * Z.of_nat (rowmajor sh idx))%Z.
Proof.
  induction sh as [|e sh IH]; intros [|i idx] V; cbn in V |- *; try tauto; [lia|].
  destruct V as [Vi V]. rewrite (IH _ V). rewrite !Nat2Z.inj_add, !Nat2Z.inj_mul. ring.
Qed.

Lemma c_strides_length item sh : length (c_strides item sh) = length sh.
Proof. induction sh; cbn; congruence. Qed.

Lemma c_strides_walk item : forall sh, prod sh <> 0 ->
  c_walk item sh (c_strides item sh) = (true, (item * Z.of_nat (prod sh))%Z).
Proof.
  induction sh as [|e sh IH]; intros P; [cbn; f_equal; lia|].
  destruct (prod_pos_cons _ _ P) as [_ P']. cbn [c_walk c_strides]. rewrite (IH P').
  destruct (Nat.eqb_spec e 1) as [->|N]; [f_equal; cbn; f_equal; lia|].
  rewrite Z.eqb_refl. f_equal. cbn [prod]. lia.
Qed.

Lemma write_all_exact : forall values n, length values = n -> write_all values (repeat 0%R n) = Some values.
Proof.
  induction values as [|v vs IH]; intros [|n] L; cbn in L; try lia; [reflexivity|].
  cbn. now rewrite (IH n) by lia.
Qed.

Section Numpy.
  Variable raw : Type.
  Variable native reversed : npy_type -> raw -> R.
  Implicit Types a : ndarray raw.

  Lemma contiguous_offset a : length (nd_strides a) = length (nd_shape a) -> prod (nd_shape a) <> 0 -> contiguous a = true ->
    forall idx, valid (nd_shape a) idx ->
    offset (nd_strides a) idx = (itemsize (nd_type a) * Z.of_nat (rowmajor (nd_shape a) idx))%Z.
  Proof.
    intros L P C. unfold contiguous in C. apply orb_true_iff in C as [C|C]; [apply Nat.eqb_eq in C; lia|].
    apply (c_walk_spec _ _ _ L C).
  Qed.

  Lemma get_contiguous_shape a : nd_shape (get_contiguous a) = nd_shape a.
  Proof. unfold get_contiguous. now destruct (contiguous a). Qed.
  Lemma get_contiguous_type a : nd_type (get_contiguous a) = nd_type a.
  Proof. unfold get_contiguous. now destruct (contiguous a). Qed.
  Lemma get_contiguous_swapped a : nd_swapped (get_contiguous a) = nd_swapped a.
  Proof. unfold get_contiguous. now destruct (contiguous a). Qed.
  Lemma get_contiguous_contiguous a : prod (nd_shape a) <> 0 -> contiguous (get_contiguous a) = true.
  Proof.
    intros P. unfold get_contiguous. destruct (contiguous a) eqn:C; [exact C|].
    unfold contiguous. cbn. rewrite (c_strides_walk _ _ P). cbn. apply orb_true_r.
  Qed.

  (** the k-th element in memory of the contiguous array is the element of the given one *)
  Lemma get_contiguous_mem a idx : (0 < itemsize (nd_type a))%Z -> length (nd_strides a) = length (nd_shape a) ->
    valid (nd_shape a) idx ->
    let c := get_contiguous a in
    nd_mem c (nd_base c + itemsize (nd_type a) * Z.of_nat (rowmajor (nd_shape a) idx))%Z
    = nd_mem a (nd_base a + offset (nd_strides a) idx)%Z.
  Proof.
    intros I L V. assert (P : prod (nd_shape a) <> 0) by (pose proof (rowmajor_lt _ _ V); lia).
    cbn zeta. unfold get_contiguous. destruct (contiguous a) eqn:C.
    - now rewrite (contiguous_offset _ L P C _ V).
    - cbn. rewrite Z.mul_comm, Z.div_mul by lia. rewrite Nat2Z.id, coords_unrank, (unrank_rowmajor _ _ V). reflexivity.
  Qed.
End Numpy.

Lemma flat_map_addresses {raw} (native : npy_type -> raw -> R) (a : ndarray raw) : forall l,
  flat_map (read_chunk native a) l
  = map (fun ad => native (nd_type a) (nd_mem a ad))
        (flat_map (fun c : chunk => let '(p, s, n) := c in map (fun j => (p + Z.of_nat j * s)%Z) (seq 0 n)) l).
Proof.
  induction l as [|[[p s] n] l IH]; [reflexivity|]. cbn [flat_map]. rewrite IH, map_app. f_equal.
  cbn. now rewrite map_map.
Qed.

Lemma sane_itemsize t : sane t = true -> (0 < itemsize t)%Z.
Proof. destruct t; cbn; intros H; try lia; discriminate. Qed.

Lemma push_all_numbers : forall l acc, push_all (map Number l) acc = Ok (acc ++ l).
Proof.
  induction l as [|x l IH]; intros acc; cbn; [now rewrite app_nil_r|].
  rewrite IH, <- app_assoc. reflexivity.
Qed.

Lemma check_numbers l : check_elements (map Number l) = (true, []).
Proof. induction l; cbn; auto. Qed.
Lemma check_thing l : In Thing l -> fst (check_elements l) = false.
Proof. induction l as [|[x|] l IH]; cbn; [tauto| |reflexivity]. intros [E|H]; [discriminate|now apply IH]. Qed.
Lemma numbers_or_thing l : (exists v, l = map Number v) \/ In Thing l.
Proof.
  induction l as [|[x|] l IH]; [left; now exists []| |right; now left].
  destruct IH as [[v ->]|H]; [left; now exists (x :: v)|right; now right].
Qed.

Lemma fold_append : forall v acc, fold_left (fun l x => l ++ [Number x]) v acc = acc ++ map Number v.
Proof.
  induction v as [|x v IH]; intros acc; cbn; [now rewrite app_nil_r|]. rewrite IH, <- app_assoc. reflexivity.
Qed.

Lemma nth_error_ext {A} : forall l l' : list A, (forall k, nth_error l k = nth_error l' k) -> l = l'.
Proof.
  induction l as [|x l IH]; intros [|y l'] H; [reflexivity|now specialize (H 0)|now specialize (H 0)|].
  pose proof (H 0) as E. injection E as ->. f_equal. apply IH. intros k. exact (H (S k)).
Qed.
