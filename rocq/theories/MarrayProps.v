(** Properties C01-C10: the multidimensional array.
    Vocabulary: [rowmajor], [at_idx], [set_coord], [ins_coord], [sum_upto], [bc_idx], [compatible] from MarraySpec.v;
    [valid] (in-range tuple) and [wf] (as many elements as the product of the extents). *)
From Coq Require Import List Arith ZArith Lia Bool Reals Lra.
From Verif Require Import Err MarrayModel MarraySpec MarrayProofs MarrayEditProofs MarrayLoopProofs MarrayOpProofs MarrayTotalProofs.
From Verif Require Import MarrayExnModel MarrayExnProofs MarrayHeapModel MarrayHeapSpec MarrayHeapProofs MarrayScalarModel MarrayScalarProofs.
Import ListNotations.

Definition arr23 : marray Z := MArr [2; 3] [1; 2; 3; 4; 5; 6]%Z.
Definition arr212 : marray Z := MArr [2; 1; 2] [1; 2; 3; 4]%Z.
Example arr23_wf : wf arr23. Proof. reflexivity. Qed.

(** ** C01 *)
(** Both subscript forms give the row-major element, for in-range tuples; the row-major position is inside the storage,
    different tuples have different positions and every position has a tuple. *)
Theorem c01_index_bijection : forall (A : Type) (a : marray A), wf a -> exts a <> [] ->
  (Z.of_nat (prod (tl (exts a))) < two31)%Z -> (Z.of_nat (prod (exts a)) <= two64)%Z ->
  (forall idx, valid (exts a) idx -> exists v, nth_error (flat a) (rowmajor (exts a) idx) = Some v /\
      get_chain a idx = Ok v /\ get_container a idx = Ok v) /\
  (forall i j, valid (exts a) i -> valid (exts a) j -> rowmajor (exts a) i = rowmajor (exts a) j -> i = j) /\
  (forall p, p < length (flat a) -> exists idx, valid (exts a) idx /\ rowmajor (exts a) idx = p).
Proof.
  intros A a Hwf Hne H31 H64. split; [|split].
  - intros idx Hv. pose proof (rowmajor_lt _ _ Hv) as Hlt. unfold wf in Hwf. rewrite <- Hwf in Hlt.
    destruct (nth_error (flat a) (rowmajor (exts a) idx)) as [v|] eqn:E; [|apply nth_error_None in E; lia].
    exists v. split; [reflexivity|]. unfold get_chain, get_container.
    rewrite chain_offset_rowmajor by now apply valid_length. rewrite container_offset_ok by assumption.
    rewrite Nat2Z.id, E. auto.
  - intros i j Hi Hj. now apply rowmajor_inj.
  - intros p Hp. exists (unrank (exts a) p). unfold wf in Hwf. rewrite Hwf in Hp. split; [now apply unrank_valid|now apply rowmajor_unrank].
Qed.
Example c01_nonvacuous : wf arr23 /\ exts arr23 <> [] /\ (Z.of_nat (prod (tl (exts arr23))) < two31)%Z /\
  (Z.of_nat (prod (exts arr23)) <= two64)%Z /\ valid (exts arr23) [1; 2] /\ get_container arr23 [1; 2] = Ok 6%Z.
Proof. repeat split; try (vm_compute; reflexivity); try discriminate; cbn; lia. Qed.
Print Assumptions c01_index_bijection.

(** The chained form needs no bound at all. *)
Theorem c01_chain_any_size : forall (A : Type) (a : marray A) idx, wf a -> valid (exts a) idx ->
  exists v, nth_error (flat a) (rowmajor (exts a) idx) = Some v /\ get_chain a idx = Ok v.
Proof.
  intros A a idx Hwf Hv. pose proof (rowmajor_lt _ _ Hv) as Hlt. unfold wf in Hwf. rewrite <- Hwf in Hlt.
  destruct (nth_error (flat a) (rowmajor (exts a) idx)) as [v|] eqn:E; [|apply nth_error_None in E; lia].
  exists v. split; [reflexivity|]. unfold get_chain. rewrite chain_offset_rowmajor by now apply valid_length. now rewrite E.
Qed.
Print Assumptions c01_chain_any_size.

(** Without the bound on the trailing product the container form maps two different tuples to one element: its strides are
    accumulated in an int. *)
Theorem c01_container_large_refuted : exists es i j, valid es i /\ valid es j /\ i <> j /\ container_offset es i = container_offset es j.
Proof.
  exists [2; Z.to_nat 65536; Z.to_nat 65536], [0;0;0], [1;0;0]. destruct container_wrap as (H1 & H2 & H3 & H4).
  repeat split; trivial; try congruence; try (cbn; lia).
Qed.
Print Assumptions c01_container_large_refuted.
(** With a trailing product of 2^31 the stride is negative: the second row is looked for 2^31 elements before the data. *)
Theorem c01_container_negative_refuted : exists es, valid es [1; 0; 0] /\ rowmajor es [1; 0; 0] = Z.to_nat two31 /\
  container_offset es [1; 0; 0] = Ok (two64 - two31)%Z.
Proof.
  exists [2; Z.to_nat 65536; Z.to_nat 32768]. split; [cbn [valid]; lia|]. split; [|vm_compute; reflexivity].
  cbn [rowmajor prod fold_right]. rewrite Nat.mul_1_r, <- Z2Nat.inj_mul by lia. cbn [Nat.mul Nat.add]. rewrite !Nat.add_0_r. reflexivity.
Qed.
Print Assumptions c01_container_negative_refuted.

(** ** C02 *)
Theorem c02_coordinates : forall (A : Type) (a : marray A) off, wf a -> off < length (flat a) ->
  exists idx, valid (exts a) idx /\ rowmajor (exts a) idx = off /\
  (forall dim, dim < length (exts a) -> getCoordinate a off dim = Ok (nth dim idx 0)) /\
  (forall idx', valid (exts a) idx' -> rowmajor (exts a) idx' = off -> idx' = idx).
Proof.
  intros A a off Hwf Ho. exists (unrank (exts a) off). pose proof Ho as Ho'. unfold wf in Hwf. rewrite Hwf in Ho'.
  split; [now apply unrank_valid|]. split; [now apply rowmajor_unrank|]. split.
  - intros dim Hd. now apply getCoordinate_spec.
  - intros idx' Hv Hr. apply (rowmajor_inj (exts a)); trivial; [now apply unrank_valid|]. now rewrite rowmajor_unrank.
Qed.
Example c02_nonvacuous : wf arr23 /\ 5 < length (flat arr23) /\ getCoordinate arr23 5 0 = Ok 1 /\ getCoordinate arr23 5 1 = Ok 2.
Proof. repeat split; cbn; lia. Qed.
Print Assumptions c02_coordinates.

(** ** C03 *)
Theorem c03_range_constructor : forall (A : Type) rank dims (init : list A), (Z.of_nat (prod dims) < two64)%Z ->
  (length dims = rank /\ length init = prod dims /\ ctor_range rank dims init = Ok (MArr dims init)) \/
  (~ (length dims = rank /\ length init = prod dims) /\ ctor_range rank dims init = Throw LogicError).
Proof. intros A. exact (@ctor_range_spec A). Qed.
Theorem c03_nested_constructor : forall (A : Type) dims (x : nested A (length dims)), (Z.of_nat (prod dims) < two64)%Z ->
  (has_shape dims x /\ exists a, ctor_nested dims x = Ok a /\ wf a /\ exts a = dims /\
       forall idx, valid dims idx -> at_idx a idx = nested_at _ x idx) \/
  (~ has_shape dims x /\ ctor_nested dims x = Throw LogicError).
Proof. intros A. exact (@ctor_nested_spec A). Qed.
Theorem c03_sized_constructor : forall (A : Type) (dflt : A) rank dims, (Z.of_nat (prod dims) < two64)%Z ->
  (length dims = rank /\ exists a, ctor_sized dflt rank dims = Ok a /\ wf a /\ exts a = dims /\
       forall idx, valid dims idx -> at_idx a idx = Some dflt) \/
  (length dims <> rank /\ ctor_sized dflt rank dims = Throw LogicError).
Proof.
  intros A dflt rank dims Hb. unfold ctor_sized, compute_total_size.
  destruct (Nat.eqb_spec (length dims) rank) as [E|E]; [left|right; split; [exact E|reflexivity]].
  split; [exact E|]. cbn [obind]. rewrite prod64_mod, Z.mod_small, Nat2Z.id by lia.
  eexists. split; [reflexivity|]. unfold wf; cbn [flat exts]. rewrite repeat_length. split; [reflexivity|]. split; [reflexivity|].
  intros idx Hv. unfold at_idx; cbn [flat exts]. apply nth_error_repeat. now apply rowmajor_lt.
Qed.
(** Assignment of a nested list to an array that is already there: the whole of it, or nothing. *)
Theorem c03_nested_assignment : forall (A : Type) (a : marray A) (x : nested A (length (exts a))), wf a ->
  (has_shape (exts a) x /\ exists a', assign_nested a x = Ok a' /\ wf a' /\ exts a' = exts a /\
       forall idx, valid (exts a) idx -> at_idx a' idx = nested_at _ x idx) \/
  (~ has_shape (exts a) x /\ assign_nested a x = Throw LogicError).
Proof.
  intros A a x Hw. unfold assign_nested. destruct (shape_ok (exts a) x) eqn:Hs.
  - left. split; [now apply shape_ok_iff|]. pose proof (flatten_length _ x Hs) as Hl. unfold wf in Hw.
    rewrite Hl, Hw, Nat.eqb_refl. eexists. split; [reflexivity|]. unfold wf; cbn [flat exts]. repeat split; trivial.
    intros idx Hv. unfold at_idx; cbn [flat exts]. now apply flatten_at.
  - right. split; [|reflexivity]. rewrite <- shape_ok_iff. congruence.
Qed.
(** Past 2^64 elements the shape passes the check and the elements run past the buffer. *)
Theorem c03_overflow : forall (A : Type) dims (x : nested A (length dims)), has_shape dims x -> (two64 <= Z.of_nat (prod dims))%Z ->
  ctor_nested dims x = UB.
Proof.
  intros A dims x Hs Hb. apply shape_ok_iff in Hs. unfold ctor_nested. rewrite Hs, (flatten_length _ x Hs), prod64_mod.
  destruct (Z.eqb_spec (Z.of_nat (prod dims)) (Z.of_nat (prod dims) mod two64)) as [E|E]; [|reflexivity].
  pose proof (Z.mod_pos_bound (Z.of_nat (prod dims)) two64 ltac:(reflexivity)). lia.
Qed.
Print Assumptions c03_overflow.
Example c03_assignment_case : assign_nested arr23 [[7; 8; 9]; [1; 1; 1]]%Z = Ok (MArr [2; 3] [7; 8; 9; 1; 1; 1]%Z) /\
  assign_nested arr23 [[7; 8]; [1; 1; 1]]%Z = Throw LogicError /\ ctor_sized 5%Z 2 [2; 3] = Ok (MArr [2; 3] [5; 5; 5; 5; 5; 5]%Z).
Proof. repeat split; vm_compute; reflexivity. Qed.
Print Assumptions c03_sized_constructor.
Print Assumptions c03_nested_assignment.
Example c03_nonvacuous : ctor_range 2 [2; 3] [1; 2; 3; 4; 5; 6]%Z = Ok arr23 /\ ctor_range 2 [2; 3] [1; 2]%Z = Throw LogicError /\
  ctor_nested (A:=Z) [2; 3] [[1; 2; 3]; [4; 5; 6]]%Z = Ok arr23 /\ ctor_nested (A:=Z) [2; 3] [[1; 2; 3]; [4; 5]]%Z = Throw LogicError.
Proof. repeat split; vm_compute; reflexivity. Qed.
Print Assumptions c03_range_constructor.
Print Assumptions c03_nested_constructor.

(** Extents whose product is 2^64 are accepted with no data at all: the product wraps to 0. *)
Theorem c03_wrap_refuted : exists dims, prod dims <> 0 /\ ctor_range (A:=Z) 2 dims [] = Ok (MArr dims []).
Proof.
  exists [Z.to_nat two32; Z.to_nat two32]. split.
  - cbn [prod]. rewrite Nat.mul_1_r. intros H. apply Nat.mul_eq_0 in H. unfold two32 in H. lia.
  - unfold ctor_range, compute_total_size. cbn [length Nat.eqb obind]. rewrite prod64_mod. cbn [prod].
    rewrite Nat.mul_1_r, Nat2Z.inj_mul, Z2Nat.id by (unfold two32; lia). reflexivity.
Qed.
Print Assumptions c03_wrap_refuted.

(** ** C04 *)
Theorem c04_resize_one : forall (A : Type) (dflt : A) a dim s e, wf a -> nth_error (exts a) dim = Some e -> fits32 (exts a) dim ->
  exists a', resize dflt a dim s = Ok a' /\ wf a' /\ exts a' = set_nth (exts a) dim s /\
  forall idx c, valid (exts a') idx -> nth_error idx dim = Some c ->
    at_idx a' idx = if Nat.ltb c e then at_idx a idx else Some dflt.
Proof. intros A. exact (@resize_spec1 A). Qed.
Theorem c04_resize_all : forall (A : Type) (dflt : A) a ss, wf a -> length ss = length (exts a) -> resize_fits (exts a) ss ->
  exists a', resize_all dflt a ss = Ok a' /\ wf a' /\ exts a' = ss /\
  forall idx, valid ss idx -> (valid (exts a) idx -> at_idx a' idx = at_idx a idx) /\ (~ valid (exts a) idx -> at_idx a' idx = Some dflt).
Proof.
  intros A dflt a ss Hwf Hl Hf. destruct (resize_all_spec dflt a ss Hwf Hl Hf) as (a' & H1 & H2 & H3 & H4).
  exists a'. repeat split; trivial.
  - intros Hv. rewrite H4 by assumption. apply validb_iff in Hv. now rewrite Hv.
  - intros Hv. rewrite H4 by assumption. destruct (validb (exts a) idx) eqn:E; [|reflexivity]. apply validb_iff in E. contradiction.
Qed.
Theorem c04_resize_rank : forall (A : Type) (dflt : A) a ss, length ss <> length (exts a) -> resize_all dflt a ss = Throw LogicError.
Proof. intros A. exact (@resize_all_rank A). Qed.
Example c04_nonvacuous : fits32 (exts arr23) 1 /\ resize_fits (exts arr23) [3; 2] /\
  resize_all 0%Z arr23 [3; 2] = Ok (MArr [3; 2] [1; 2; 4; 5; 0; 0]%Z).
Proof.
  split; [split; vm_compute; reflexivity|]. split; [|vm_compute; reflexivity].
  intros k Hk. cbn [exts arr23 length] in Hk. destruct k as [|[|k]]; [..|lia]; split; vm_compute; reflexivity.
Qed.
Print Assumptions c04_resize_one.
Print Assumptions c04_resize_all.
Print Assumptions c04_resize_rank.

(** ** C05 *)
Theorem c05_insert : forall (A : Type) (a : marray A) dim pos num val e, wf a -> nth_error (exts a) dim = Some e -> pos <= e ->
  fits32 (exts a) dim ->
  exists a', insert a dim pos num val = Ok a' /\ wf a' /\ exts a' = set_nth (exts a) dim (e + num) /\
  forall idx c, valid (exts a') idx -> nth_error idx dim = Some c ->
    at_idx a' idx = if Nat.ltb c pos then at_idx a idx
                    else if Nat.ltb c (pos + num) then Some val else at_idx a (set_coord idx dim (c - num)).
Proof. intros A. exact (@insert_spec A). Qed.
Theorem c05_erase : forall (A : Type) (a : marray A) dim pos num e, wf a -> nth_error (exts a) dim = Some e -> pos < e -> pos + num <= e ->
  fits32 (exts a) dim ->
  exists a', erase a dim pos num = Ok a' /\ wf a' /\ exts a' = set_nth (exts a) dim (e - num) /\
  forall idx c, valid (exts a') idx -> nth_error idx dim = Some c ->
    at_idx a' idx = if Nat.ltb c pos then at_idx a idx else at_idx a (set_coord idx dim (c + num)).
Proof. intros A. exact (@erase_spec A). Qed.
Theorem c05_erase_insert : forall (A : Type) (a : marray A) dim pos num val e, wf a -> nth_error (exts a) dim = Some e -> pos <= e ->
  0 < num -> fits32 (exts a) dim -> exists a', insert a dim pos num val = Ok a' /\ erase a' dim pos num = Ok a.
Proof. intros A. exact (@erase_insert A). Qed.
(** Exceptions from copying the inserted value, moving element types: either the new buffer holds exactly the result, or the
    exception propagates with every old element back in place and every cell of the new buffer destroyed. *)
Theorem c05_insert_exceptions_moving : forall (V : Type) its a n b (val : V) (bud : budget) src old,
  length src = its * (a + b) -> holds old src ->
  exists res, insert_moving its a n b val bud old = Ok res /\
  match res with
  | Completed _ new' => exists d, ins_loop its a n b val src = Ok d /\ holds new' d
  | Threw old' new' => bud <> None /\ holds old' src /\ all_raw new'
  end.
Proof. intros V. exact (@insert_moving_ok V). Qed.
(** The same for element types that are copied. *)
Theorem c05_insert_exceptions_copying : forall (V : Type) its a n b (val : V) (bud : budget) src old,
  length src = its * (a + b) -> holds old src ->
  exists d res, ins_loop its a n b val src = Ok d /\ insert_copying its a n b val bud old = Ok res /\
  match res with
  | Completed o m => o = old /\ holds m d
  | Threw o m => bud <> None /\ o = old /\ all_raw m
  end.
Proof. intros V. exact (@insert_copying_ok V). Qed.
Theorem c05_erase_exceptions_copying : forall (V : Type) its a n b (bud : budget) (src : list V) old,
  length src = its * (a + n + b) -> holds old src ->
  exists d res, era_loop its a n b src = Ok d /\ erase_copying its a n b bud old = Ok res /\
  match res with
  | Completed o m => o = old /\ holds m d
  | Threw o m => bud <> None /\ o = old /\ all_raw m
  end.
Proof. intros V. exact (@erase_copying_ok V). Qed.
Example c05_nonvacuous : insert arr23 1 1 2 9%Z = Ok (MArr [2; 5] [1; 9; 9; 2; 3; 4; 9; 9; 5; 6]%Z) /\
  erase (MArr [2; 5] [1; 9; 9; 2; 3; 4; 9; 9; 5; 6]%Z) 1 1 2 = Ok arr23.
Proof. split; vm_compute; reflexivity. Qed.
(** A throw in the second block. *)
Example c05_exn_nonvacuous :
  let old : buffer Z := fun p => match nth_error [1; 2; 3; 4; 5; 6]%Z p with Some v => Live v | None => Raw end in
  holds old [1; 2; 3; 4; 5; 6]%Z /\
  exists o m, insert_moving 2 1 2 2 9%Z (Some 3) old = Ok (Threw o m) /\ o 4 = Live 5%Z /\ m 4 = Raw.
Proof. cbv zeta. split; [intros p; reflexivity|]. do 2 eexists. split; [vm_compute; reflexivity|]. split; reflexivity. Qed.
Print Assumptions c05_insert.
Print Assumptions c05_erase.
Print Assumptions c05_erase_insert.
Print Assumptions c05_insert_exceptions_moving.
Print Assumptions c05_insert_exceptions_copying.
Print Assumptions c05_erase_exceptions_copying.
(** Leading extents whose product is 2^32: the iteration count wraps to 0 and every element is lost. *)
Theorem c05_insert_large_refuted : forall (A : Type) (a : marray A) num val, wf a -> exts a = [Z.to_nat 65536; Z.to_nat 65536; 1] ->
  insert a 2 0 num val = Ok (MArr [Z.to_nat 65536; Z.to_nat 65536; 1 + num] []).
Proof. intros A. exact (@insert_wrap A). Qed.
Print Assumptions c05_insert_large_refuted.

(** ** C06 *)
Theorem c06_reshape : forall (A : Type) (a : marray A) es, (Z.of_nat (prod es) < two32)%Z ->
  (length es = length (exts a) /\ prod es = length (flat a) /\ reshape a es = Ok (MArr es (flat a))) \/
  (~ (length es = length (exts a) /\ prod es = length (flat a)) /\ reshape a es = Throw LogicError).
Proof. intros A. exact (@reshape_spec A). Qed.
Example c06_nonvacuous : reshape arr23 [3; 2] = Ok (MArr [3; 2] [1; 2; 3; 4; 5; 6]%Z) /\ reshape arr23 [2; 2] = Throw LogicError.
Proof. split; vm_compute; reflexivity. Qed.
Print Assumptions c06_reshape.
Theorem c06_large_refuted : exists a es, @wf Z a /\ prod es <> length (flat a) /\ reshape a es = Ok (MArr es (flat a)).
Proof.
  exists (MArr [0; 0] []), [Z.to_nat 65536; Z.to_nat 65536]. destruct reshape_wrap as (H1 & H2 & H3).
  split; [exact H1|]. split; [|exact H2]. intros E. apply H3. unfold wf. cbn [exts flat] in *. now rewrite E.
Qed.
Print Assumptions c06_large_refuted.

(** ** C07 *)
Theorem c07_sum_dim : forall (a : marray Z) dim e, wf a -> nth_error (exts a) dim = Some e -> 1 < length (exts a) ->
  stride_ok (drop_nth (exts a) dim) ->
  exists s, sum_dim a dim = Ok s /\ wf s /\ exts s = drop_nth (exts a) dim /\
  forall idx f, valid (exts s) idx -> (forall c, c < e -> at_idx a (ins_coord idx dim c) = Some (f c)) ->
    at_idx s idx = Some (sum_upto e f).
Proof. exact sum_dim_spec. Qed.
Theorem c07_sum_same_rank : forall (a : marray Z) dim e, wf a -> nth_error (exts a) dim = Some e ->
  stride_ok (set_nth (exts a) dim 1) ->
  exists s, sum_same_rank a dim = Ok s /\ wf s /\ exts s = set_nth (exts a) dim 1 /\
  forall idx f, valid (exts s) idx -> (forall c, c < e -> at_idx a (set_coord idx dim c) = Some (f c)) ->
    at_idx s idx = Some (sum_upto e f).
Proof. exact sum_same_rank_spec. Qed.
(** The total is the sum of all elements and is the same whatever dimensions are summed away, in any order. *)
Theorem c07_total : forall (a : marray Z), sum_all a = sum_upto (length (flat a)) (fun j => nth j (flat a) 0%Z).
Proof. intros a. unfold sum_all. rewrite fold_left_add. lia. Qed.
Theorem c07_any_order : forall ds (a : marray Z), wf a -> (Z.of_nat (prod1 (exts a)) < two31)%Z -> length ds < length (exts a) ->
  (forall k d, nth_error ds k = Some d -> d < length (exts a) - k) ->
  exists s, sum_dims a ds = Ok s /\ length (exts s) = length (exts a) - length ds /\ sum_all s = sum_all a.
Proof.
  intros ds a Hwf Hp Hl Hd. destruct (sum_dims_ok ds a Hwf Hp Hl Hd) as (s & Hs & Hls).
  exists s. repeat split; trivial. now apply (sum_dims_total ds a s).
Qed.
Example c07_nonvacuous : sum_dim arr23 0 = Ok (MArr [3] [5; 7; 9]%Z) /\ sum_dim arr23 1 = Ok (MArr [2] [6; 15]%Z) /\
  sum_same_rank arr23 1 = Ok (MArr [2; 1] [6; 15]%Z) /\ sum_dims arr212 [2; 0] = Ok (MArr [1] [10]%Z) /\ sum_all arr23 = 21%Z /\
  stride_ok (drop_nth (exts arr23) 0) /\ (Z.of_nat (prod1 (exts arr212)) < two31)%Z.
Proof. repeat split; vm_compute; trivial; discriminate. Qed.
Print Assumptions c07_sum_dim.
Print Assumptions c07_sum_same_rank.
Print Assumptions c07_total.
Print Assumptions c07_any_order.

(** ** C08 *)
Theorem c08_broadcast : forall (A B C : Type) (op : A -> B -> C) m1 m2, wf m1 -> wf m2 -> compatible (exts m1) (exts m2) ->
  exists r, binop op m1 m2 = Ok r /\ wf r /\ exts r = bc_shape (exts m1) (exts m2) /\
  forall idx, valid (exts r) idx ->
    exists x y, at_idx m1 (bc_idx (exts m1) idx) = Some x /\ at_idx m2 (bc_idx (exts m2) idx) = Some y /\
                at_idx r idx = Some (op x y).
Proof. intros A B C. exact (@binop_spec A B C). Qed.
Theorem c08_incompatible : forall (A B C : Type) (op : A -> B -> C) m1 m2, ~ compatible (exts m1) (exts m2) ->
  binop op m1 m2 = Throw LogicError.
Proof. intros A B C. exact (@binop_incompatible A B C). Qed.
Example c08_nonvacuous : compatible [2; 3] [3] /\ compatible [2; 1] [3] /\ ~ compatible [2; 3] [2] /\ bc_shape [2; 1] [3] = [2; 3] /\
  binop Z.add (MArr [2; 1] [10; 20]%Z) (MArr [3] [1; 2; 3]%Z) = Ok (MArr [2; 3] [11; 12; 13; 21; 22; 23]%Z) /\
  binop Z.add arr23 (MArr [2] [1; 2]%Z) = Throw LogicError.
Proof. unfold compatible. cbn. unfold ext_compat. repeat split; auto; lia. Qed.
Print Assumptions c08_broadcast.
Print Assumptions c08_incompatible.

(** ** C09 *)
Theorem c09_scalar_ops_partial : forall (a : marray R) (f : R),
  (exists r, arr_plus_scal a f = Ok r /\ elementwise a r (fun x => (x + f)%R)) /\
  (exists r, scal_plus_arr f a = Ok r /\ elementwise a r (fun x => (f + x)%R)) /\
  (exists r, arr_minus_scal a f = Ok r /\ elementwise a r (fun x => (x - f)%R)) /\
  (exists r, scal_minus_arr f a = Ok r /\ elementwise a r (fun x => (f - x)%R)) /\
  (exists r, arr_mult_scal a f = Ok r /\ elementwise a r (fun x => (x * f)%R)) /\
  (exists r, scal_mult_arr f a = Ok r /\ elementwise a r (fun x => (f * x)%R)) /\
  (exists r, arr_div_scal a f = Ok r /\ elementwise a r (fun x => (x / f)%R)).
Proof. exact scal_ops. Qed.
(** scalar / array computes array / scalar. *)
Theorem c09_scalar_div_refuted :
  ~ forall f a, wf a -> (forall x, In x (flat a) -> x <> 0%R) -> f <> 0%R ->
     exists r, scal_div_arr f a = Ok r /\ elementwise a r (fun x => (f / x)%R).
Proof. exact scal_div_refuted. Qed.
(** a op= a[k] does not apply the value a[k] had. *)
Theorem c09_alias_refuted :
  ~ forall op a k v, wf a -> nth_error (flat a) k = Some v ->
     exists r, scal_assign op a (SElem k) = Ok r /\ elementwise a r (fun x => op x v).
Proof. exact scal_alias_refuted. Qed.
(** Compound assignment between arrays of one shape. *)
Theorem c09_compound : forall op (a1 a2 : marray R), wf a1 -> wf a2 -> exts a1 = exts a2 ->
  exists r, arr_assign_op op a1 a2 = Ok r /\ wf r /\ exts r = exts a1 /\
  forall idx x y, at_idx a1 idx = Some x -> at_idx a2 idx = Some y -> at_idx r idx = Some (op x y).
Proof. exact arr_assign_op_spec. Qed.
(** Compound assignment does not compare shapes. *)
Theorem c09_compound_shapes_refuted : exists a1 a2 r, wf a1 /\ wf a2 /\ exts a1 <> exts a2 /\ arr_assign_op Rplus a1 a2 = Ok r.
Proof.
  exists (MArr [2; 3] [0;0;0;0;0;0]%R), (MArr [3; 2] [1;2;3;4;5;6]%R).
  destruct arr_assign_op_shapes as (r & H & _). exists r. repeat split; trivial. discriminate.
Qed.
Example c09_nonvacuous : exists r, scal_minus_arr 1 (MArr [2] [2; 5]%R) = Ok r /\ at_idx r [1] = Some (-5 + 1)%R.
Proof. eexists; split; reflexivity. Qed.
Print Assumptions c09_scalar_ops_partial.
Print Assumptions c09_scalar_div_refuted.
Print Assumptions c09_alias_refuted.
Print Assumptions c09_compound.
Print Assumptions c09_compound_shapes_refuted.

(** ** C10 *)
(** Every history of constructions, copies, moves, assignments, swaps, element writes, resizes and destructions that is meaningful on
    plain values runs without undefined behaviour on the heap, every variable shows the value it should, no two variables share a block, and when
    all variables are gone no block is left. *)
Theorem c10_arrays_are_values : forall tr al os m, one_alloc al os -> vrun (fun _ => None) os = Ok m ->
  exists s, hrun tr hinit os = Ok s /\ (forall x, view s x = m x) /\
  (forall x y vx vy b, x <> y -> vars s x = Some vx -> vars s y = Some vy -> v_ptr vx = Some b -> v_ptr vy <> Some b) /\
  ((forall x, m x = None) -> forall b, heap s b = None).
Proof. exact arrays_are_values. Qed.
Example c10_nonvacuous :
  let prog := [HNew 0 0 [2] [1; 2]%Z; HCopy 1 0; HWrite 0 0 7%Z; HMove 2 0; HSwap 1 2; HAssign 0 1; HResize 0 0 3; HMoveAssign 1 2; HDestroy 2] in
  one_alloc 0 prog /\ exists m, vrun (fun _ => None) prog = Ok m /\ m 0 = Some (MArr [3] [7; 2; 0]%Z) /\ m 1 = Some (MArr [2] [1; 2]%Z).
Proof. cbv zeta. split; [repeat constructor|]. eexists; split; [vm_compute; reflexivity|]. split; reflexivity. Qed.
Print Assumptions c10_arrays_are_values.
(** Two allocators that are not interchangeable: move assignment leaves a block with an object that returns it to the wrong allocator. *)
Theorem c10_mixed_allocators_refuted : exists prog, is_ok (vrun (fun _ => None) prog) /\ hrun std_traits hinit prog = UB.
Proof. eexists. exact move_assign_mixed_allocators. Qed.
Print Assumptions c10_mixed_allocators_refuted.
