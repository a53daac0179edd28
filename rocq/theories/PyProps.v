(** C81: arrays and sequences keep their elements when they cross between Python and C++. *)
From Coq Require Import Reals List Arith ZArith Bool Lia Lra.
From Verif Require Import Err MarrayModel MarraySpec MarrayProofs PyModel PyProofs.
Import ListNotations.

(** ** Specification *)

(** What the iterator of numpy promises for a contiguous array that has elements: its chunks visit the elements
    in the order of memory, each once. *)
Definition addresses (l : list chunk) : list Z :=
  flat_map (fun c : chunk => let '(p, s, n) := c in map (fun j => (p + Z.of_nat j * s)%Z) (seq 0 n)) l.
Definition walks {raw} (iter : ndarray raw -> list chunk) : Prop :=
  forall a, length (nd_strides a) = length (nd_shape a) -> contiguous a = true -> prod (nd_shape a) <> 0 ->
  addresses (iter a)
  = map (fun k => (nd_base a + itemsize (nd_type a) * Z.of_nat k)%Z) (seq 0 (prod (nd_shape a))).

(** one chunk for everything, and one chunk for each element *)
Definition one_chunk {raw} (a : ndarray raw) : list chunk :=
  [(nd_base a, itemsize (nd_type a), prod (nd_shape a))].
Definition small_chunks {raw} (a : ndarray raw) : list chunk :=
  map (fun k => ((nd_base a + itemsize (nd_type a) * Z.of_nat k)%Z, itemsize (nd_type a), 1)) (seq 0 (prod (nd_shape a))).

Lemma one_chunk_walks raw : walks (@one_chunk raw).
Proof.
  intros a _ _ _. unfold addresses, one_chunk. cbn [flat_map]. rewrite app_nil_r. apply map_ext. intros k. lia.
Qed.
Lemma small_chunks_walks raw : walks (@small_chunks raw).
Proof.
  intros a _ _ _. unfold addresses, small_chunks. induction (seq 0 (prod (nd_shape a))) as [|k l IH]; [reflexivity|].
  cbn [map flat_map]. rewrite IH. cbn. f_equal. lia.
Qed.

(** ** Arrays *)

(** An array in the machine's byte order with elements, of a supported type and the rank asked for, arrives with its
    shape and every element, whatever its strides: transposed, reversed, sliced and broadcast views too. *)
Theorem c81_from_numpy : forall raw (native reversed : npy_type -> raw -> R) iter (a : ndarray raw) dim,
  walks iter -> length (nd_strides a) = length (nd_shape a) -> nd_swapped a = false -> prod (nd_shape a) <> 0 ->
  sane (nd_type a) = true -> length (nd_shape a) = dim ->
  exists m, from_numpy native iter dim a = Ok m /\ exts m = nd_shape a /\ wf m
    /\ forall idx, valid (nd_shape a) idx -> get_chain m idx = Ok (nd_get native reversed a idx).
Proof.
  intros raw native reversed iter a dim W L B P T D.
  set (c := get_contiguous a).
  assert (CS : nd_shape c = nd_shape a) by apply get_contiguous_shape.
  assert (CT : nd_type c = nd_type a) by apply get_contiguous_type.
  assert (CL : length (nd_strides c) = length (nd_shape c)).
  { unfold c, get_contiguous. destruct (contiguous a); [exact L|]. apply c_strides_length. }
  assert (CC : contiguous c = true) by now apply get_contiguous_contiguous.
  set (vs := flat_map (read_chunk native c) (iter c)).
  assert (V : vs = map (fun k => native (nd_type a) (nd_mem c (nd_base c + itemsize (nd_type a) * Z.of_nat k)%Z))
                       (seq 0 (prod (nd_shape a)))).
  { unfold vs. rewrite flat_map_addresses. fold (addresses (iter c)). rewrite (W c CL CC) by (rewrite CS; exact P).
    rewrite map_map, CS, CT. reflexivity. }
  exists (MArr (nd_shape a) vs).
  assert (LV : length vs = prod (nd_shape a)) by (rewrite V, map_length, seq_length; reflexivity).
  split; [|split; [reflexivity|split; [exact LV|]]].
  - unfold from_numpy, convertible. fold c. rewrite CS, CT, D, Nat.eqb_refl, T. cbn [andb].
    unfold construct. fold c. rewrite CS, CT, D, Nat.eqb_refl, T. cbn [negb].
    destruct (Nat.eqb_spec (prod (nd_shape a)) 0) as [E|_]; [contradiction|].
    fold vs. now rewrite (write_all_exact vs).
  - intros idx VI. unfold get_chain. cbn [exts flat].
    rewrite chain_offset_rowmajor by now apply valid_length.
    assert (N : nth_error (seq 0 (prod (nd_shape a))) (rowmajor (nd_shape a) idx) = Some (rowmajor (nd_shape a) idx)).
    { pose proof (rowmajor_lt _ _ VI).
      rewrite (nth_error_nth' _ 0) by (rewrite seq_length; assumption). now rewrite seq_nth. }
    rewrite V, (map_nth_error _ _ _ N).
    f_equal. unfold nd_get. rewrite B. f_equal. apply get_contiguous_mem; trivial. now apply sane_itemsize.
Qed.
Print Assumptions c81_from_numpy.

(** A wrong rank or a type outside the list is refused. *)
Theorem c81_refused : forall raw (native : npy_type -> raw -> R) iter (a : ndarray raw) dim,
  length (nd_shape a) <> dim \/ sane (nd_type a) = false -> from_numpy native iter dim a = Throw OtherExn.
Proof.
  intros raw native iter a dim H. unfold from_numpy, convertible. rewrite get_contiguous_shape, get_contiguous_type.
  destruct H as [H| ->]; [apply Nat.eqb_neq in H; rewrite H; reflexivity|]. now rewrite andb_false_r.
Qed.
Print Assumptions c81_refused.

(** An array given to Python and back is the same array. *)
Theorem c81_round_trip : forall raw (native : npy_type -> raw -> R) iter store blank (m : marray R),
  walks iter -> (forall x, native NFloat64 (store x) = x) -> wf m -> prod (exts m) <> 0 ->
  from_numpy native iter (length (exts m)) (to_numpy store blank m) = Ok m.
Proof.
  intros raw native iter store blank m W S F P.
  destruct (c81_from_numpy raw native native iter (to_numpy store blank m) (length (exts m)) W) as (m' & E & X & F' & G);
    try reflexivity; trivial.
  { apply c_strides_length. }
  rewrite E. f_equal. destruct m as [es fl], m' as [es' fl']. cbn in X, F, F', P |- *. subst es'.
  f_equal. unfold wf in F, F'. cbn in F, F'.
  apply nth_error_ext. intros k. destruct (Nat.lt_ge_cases k (prod es)) as [K|K].
  2: { rewrite !(proj2 (nth_error_None _ _)) by lia. reflexivity. }
  specialize (G (unrank es k) (unrank_valid _ _ K)). cbn in G. unfold get_chain in G. cbn in G.
  rewrite chain_offset_rowmajor in G by apply unrank_length. rewrite (rowmajor_unrank _ _ K) in G.
  unfold nd_get in G. cbn in G. rewrite c_strides_offset in G by now apply unrank_valid.
  rewrite (rowmajor_unrank _ _ K) in G.
  replace (8 * Z.of_nat k / 8)%Z with (Z.of_nat k) in G by (rewrite Z.mul_comm, Z.div_mul; lia).
  rewrite Nat2Z.id in G.
  destruct (nth_error fl' k) as [y|] eqn:Y; [|discriminate]. injection G as ->.
  destruct (nth_error fl k) as [x|] eqn:N; [now rewrite S|]. apply nth_error_None in N. lia.
Qed.
Print Assumptions c81_round_trip.

(** Only the number of the type is looked at: an array in the other byte order is accepted and its elements are
    read as if they were in the machine's order. *)
Theorem c81_byte_order_refuted : forall raw (native reversed : npy_type -> raw -> R) iter (b : raw),
  walks iter -> native NInt32 b <> reversed NInt32 b ->
  exists a m, nd_swapped a = true /\ from_numpy native iter 1 a = Ok m
    /\ get_chain m [0] <> Ok (nd_get native reversed a [0]).
Proof.
  intros raw native reversed iter b W D.
  exists (NdArray [2] [4%Z] 0%Z NInt32 true (fun _ => b)).
  set (a := NdArray [2] [4%Z] 0%Z NInt32 true (fun _ => b)).
  set (a' := NdArray [2] [4%Z] 0%Z NInt32 false (fun _ => b)).
  exists (MArr [2] [native NInt32 b; native NInt32 b]). split; [reflexivity|].
  split.
  - pose proof (W a eq_refl eq_refl ltac:(discriminate)) as A.
    unfold from_numpy. change (convertible 1 a) with true. cbn iota.
    unfold construct. change (get_contiguous a) with a.
    change (negb (length (nd_shape a) =? 1)) with false. change (prod (nd_shape a) =? 0) with false.
    change (negb (sane (nd_type a))) with false. cbn iota.
    rewrite flat_map_addresses. fold (addresses (iter a)). rewrite A. reflexivity.
  - unfold get_chain, nd_get. cbn. intros E. injection E as E. contradiction.
Qed.
Print Assumptions c81_byte_order_refuted.

(** An array without elements of the right rank and type passes the check, and then the null iterator is used. *)
Theorem c81_empty_refuted : forall raw (native : npy_type -> raw -> R) iter (a : ndarray raw),
  prod (nd_shape a) = 0 -> sane (nd_type a) = true ->
  convertible (length (nd_shape a)) a = true /\ from_numpy native iter (length (nd_shape a)) a = UB.
Proof.
  intros raw native iter a P T.
  assert (C : convertible (length (nd_shape a)) a = true).
  { unfold convertible. now rewrite get_contiguous_shape, get_contiguous_type, Nat.eqb_refl, T. }
  split; [exact C|]. unfold from_numpy. rewrite C. unfold construct. rewrite get_contiguous_shape, Nat.eqb_refl, P.
  reflexivity.
Qed.
Print Assumptions c81_empty_refuted.

(** ** Sequences *)

(** A list or tuple arrives exactly when all its elements are numbers, with the same numbers in the same order. *)
Theorem c81_sequence : forall l v, to_vector (Items l) = Ok v <-> l = map Number v.
Proof.
  intros l v. unfold to_vector, seq_convertible. destruct (numbers_or_thing l) as [[w ->]|H].
  - rewrite check_numbers. cbn [fst seq_construct]. rewrite push_all_numbers. cbn. split.
    + intros E. injection E as ->. reflexivity.
    + intros E. f_equal. revert v E. induction w as [|x w IH]; intros [|y v] E; cbn in E; try discriminate; [reflexivity|].
      injection E as -> E. f_equal. now apply IH.
  - rewrite (check_thing l H). split; [discriminate|]. intros ->. apply in_map_iff in H as (x & E & _). discriminate.
Qed.
Print Assumptions c81_sequence.

Theorem c81_range : forall l, to_vector (Range l) = Ok l.
Proof. intros l. unfold to_vector. cbn. rewrite push_all_numbers. reflexivity. Qed.
Print Assumptions c81_range.

(** The list made from a vector is read back as that vector. *)
Theorem c81_list_round_trip : forall v, to_vector (to_list v) = Ok v.
Proof. intros v. unfold to_list. rewrite fold_append. cbn [app]. now apply c81_sequence. Qed.
Print Assumptions c81_list_round_trip.

(** A generator, which has no length, is refused before anything is taken from it. *)
Theorem c81_generator : forall l, to_vector (Stream l None) = Throw OtherExn /\ snd (seq_convertible (Stream l None)) = Stream l None.
Proof. intros l. split; reflexivity. Qed.
Print Assumptions c81_generator.

(** An iterator that knows its length is used up by the check, and what arrives is always empty. *)
Theorem c81_iterator_refuted : forall v n, to_vector (Stream (map Number v) (Some n)) = Ok [].
Proof. intros v n. unfold to_vector. cbn. rewrite check_numbers. reflexivity. Qed.
Print Assumptions c81_iterator_refuted.

(** ** A case: a transposed and reversed view of six 32 bit numbers *)
Example c81_nonvacuous :
  let a := NdArray [3; 2] [(-4)%Z; 12%Z] 8%Z NInt32 false (fun ad => ad) in
  let native := fun (_ : npy_type) ad => IZR ad in
  contiguous a = false
  /\ (exists m, from_numpy native one_chunk 2 a = Ok m /\ flat m = map IZR [8; 20; 4; 16; 0; 12]%Z
       /\ from_numpy native small_chunks 2 a = Ok m)
  /\ from_numpy native one_chunk 1 a = Throw OtherExn
  /\ to_vector (Items [Number 1; Number 2]%R) = Ok [1; 2]%R
  /\ to_vector (Items [Number 1%R; Thing]) = Throw OtherExn
  /\ to_vector (Stream [Number 1; Number 2]%R (Some 2)) = Ok [].
Proof.
  cbn zeta. split; [reflexivity|]. split; [eexists; split; [reflexivity|split; reflexivity]|].
  repeat split; reflexivity.
Qed.
