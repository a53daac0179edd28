(** Proofs about the array model: indexing and construction. *)
From Coq Require Import List Arith ZArith Lia Bool.
From Coq Require Import ZifyBool ZifyNat.
From Verif Require Import Err MarrayModel MarraySpec.
Import ListNotations.

(** ** Products *)
Lemma prod_app l1 l2 : prod (l1 ++ l2) = prod l1 * prod l2.
Proof. induction l1 as [|e l1 IH]; cbn; [lia|]. rewrite IH. lia. Qed.

Lemma prod_rev l : prod (rev l) = prod l.
Proof. induction l as [|e l IH]; cbn; [reflexivity|]. rewrite prod_app, IH; cbn. lia. Qed.

(** ** valid *)
Lemma valid_length es : forall idx, valid es idx -> length idx = length es.
Proof. induction es as [|e es IH]; intros [|i idx]; cbn; try tauto. intros [_ H]. f_equal. now apply IH. Qed.

Lemma valid_app es1 : forall idx1 es2 idx2, length idx1 = length es1 ->
  (valid (es1 ++ es2) (idx1 ++ idx2) <-> valid es1 idx1 /\ valid es2 idx2).
Proof.
  induction es1 as [|e es1 IH]; intros [|i idx1] es2 idx2 Hl; cbn in *; try lia; [tauto|].
  specialize (IH idx1 es2 idx2 ltac:(lia)). tauto.
Qed.

Lemma valid_nth es : forall idx, valid es idx <->
  (length idx = length es /\ forall k i e, nth_error idx k = Some i -> nth_error es k = Some e -> i < e).
Proof.
  induction es as [|e es IH]; intros [|i idx]; cbn; split; try tauto; try (intros [H _]; lia); intros H.
  - split; [reflexivity|]. intros [|k]; discriminate.
  - destruct H as [H1 H2]. apply IH in H2 as [H2 H3]. split; [lia|].
    intros [|k] i' e'; cbn; [congruence|]. apply H3.
  - destruct H as [H1 H2]. split; [exact (H2 0 i e eq_refl eq_refl)|]. apply IH. split; [lia|].
    intros k i' e' Ha Hb. exact (H2 (S k) i' e' Ha Hb).
Qed.

(** ** Row-major offsets *)
Lemma rowmajor_lt es : forall idx, valid es idx -> rowmajor es idx < prod es.
Proof.
  induction es as [|e es IH]; intros [|i idx]; cbn; try tauto; [lia|].
  intros [Hi Hv]. specialize (IH idx Hv). fold (prod es). nia.
Qed.

Lemma rowmajor_inj es : forall i1 i2, valid es i1 -> valid es i2 -> rowmajor es i1 = rowmajor es i2 -> i1 = i2.
Proof.
  induction es as [|e es IH]; intros [|i1 l1] [|i2 l2]; cbn; try tauto.
  intros [Ha Hv1] [Hb Hv2] Heq.
  pose proof (rowmajor_lt es l1 Hv1) as B1. pose proof (rowmajor_lt es l2 Hv2) as B2.
  fold (prod es) in *.
  assert (i1 = i2) by (destruct (lt_eq_lt_dec i1 i2) as [[|]|]; [nia|assumption|nia]).
  subst i2. f_equal. apply IH; trivial. lia.
Qed.

Fixpoint unrank (es : list nat) (off : nat) : list nat :=
  match es with [] => [] | e :: es' => off / prod es' :: unrank es' (off mod prod es') end.

Lemma unrank_valid es : forall off, off < prod es -> valid es (unrank es off).
Proof.
  induction es as [|e es IH]; intros off Hoff; cbn [unrank valid prod fold_right] in *; [exact I|].
  fold (prod es) in *.
  assert (Hp : prod es <> 0) by nia.
  split; [apply Nat.div_lt_upper_bound; nia|]. apply IH. now apply Nat.mod_upper_bound.
Qed.

Lemma rowmajor_unrank es : forall off, off < prod es -> rowmajor es (unrank es off) = off.
Proof.
  induction es as [|e es IH]; intros off Hoff; cbn [unrank rowmajor prod fold_right] in *; [lia|].
  fold (prod es) in *. assert (Hp : prod es <> 0) by nia.
  rewrite IH by now apply Nat.mod_upper_bound.
  rewrite (Nat.div_mod off (prod es)) at 3 by assumption. lia.
Qed.

Lemma unrank_rowmajor es idx : valid es idx -> unrank es (rowmajor es idx) = idx.
Proof.
  intros Hv. apply (rowmajor_inj es); trivial.
  - apply unrank_valid. now apply rowmajor_lt.
  - apply rowmajor_unrank. now apply rowmajor_lt.
Qed.

Lemma unrank_length es : forall off, length (unrank es off) = length es.
Proof. induction es as [|e es IH]; intros off; cbn; [reflexivity|]. now rewrite IH. Qed.

Lemma rowmajor_app es1 : forall i1 es2 i2, length i1 = length es1 ->
  rowmajor (es1 ++ es2) (i1 ++ i2) = rowmajor es1 i1 * prod es2 + rowmajor es2 i2.
Proof.
  induction es1 as [|e es1 IH]; intros [|i i1] es2 i2 Hl; cbn in *; try lia.
  rewrite IH by lia. fold (prod (es1 ++ es2)). fold (prod es1). rewrite prod_app. nia.
Qed.

(** ** Chained subscripts *)
Lemma chain_from_rowmajor es : forall off idx, length idx = length es ->
  chain_from off es idx = off * prod es + rowmajor es idx.
Proof.
  induction es as [|e es IH]; intros off [|i idx] Hl; cbn in *; try lia.
  rewrite IH by lia. fold (prod es). lia.
Qed.

Lemma chain_offset_rowmajor es idx : length idx = length es -> chain_offset es idx = rowmajor es idx.
Proof.
  destruct es as [|e es], idx as [|i idx]; cbn; try lia. intros Hl.
  rewrite chain_from_rowmajor by lia. reflexivity.
Qed.

(** ** Container subscripts *)
Lemma to_int_id x : (0 <= x < two31)%Z -> to_int x = x.
Proof. unfold to_int. intros H. rewrite Z.mod_small; unfold two31, two32 in *; lia. Qed.
Lemma to_size_id x : (0 <= x < two64)%Z -> to_size x = x.
Proof. unfold to_size. intros H. now apply Z.mod_small. Qed.

Lemma two_vals : two31 = 2147483648%Z /\ two32 = 4294967296%Z /\ two64 = 18446744073709551616%Z.
Proof. repeat split. Qed.

Lemma acc_int_gen l : forall p, (0 < p)%Z -> prod l <> 0 -> (p * Z.of_nat (prod l) < two31)%Z ->
  fold_left (fun acc e => to_int (to_size (to_size acc * Z.of_nat e))) l p = (p * Z.of_nat (prod l))%Z.
Proof.
  pose proof two_vals as (T1 & T2 & T3).
  induction l as [|e l IH]; intros p Hp Hnz Hb; cbn [fold_left prod fold_right] in *; [lia|].
  fold (prod l) in *.
  assert (He : e <> 0) by nia. assert (Hl : prod l <> 0) by nia.
  assert (Hpe : (p <= p * Z.of_nat e <= p * Z.of_nat (e * prod l))%Z) by nia.
  rewrite (to_size_id p) by lia. rewrite to_size_id by lia. rewrite to_int_id by lia.
  rewrite IH; try lia; rewrite ?Nat2Z.inj_mul in *; nia.
Qed.

Lemma acc_int_ok l : prod l <> 0 -> (Z.of_nat (prod l) < two31)%Z -> acc_int l = Z.of_nat (prod l).
Proof. intros H1 H2. unfold acc_int. rewrite acc_int_gen; lia. Qed.

Lemma container_loop_cons off st e rest i idx :
  container_loop off st (e :: rest) (i :: idx) =
  if Nat.eqb e 0 then UB
  else container_loop (to_size (off + to_size (Z.of_nat i * st))) (st / Z.of_nat e)%Z rest idx.
Proof. reflexivity. Qed.

Lemma container_loop_ok rest : forall i idx off,
  length idx = length rest -> valid rest idx ->
  (0 <= off)%Z -> (off + Z.of_nat (i * prod rest + rowmajor rest idx) < two64)%Z ->
  (Z.of_nat (prod rest) < two64)%Z ->
  container_loop off (Z.of_nat (prod rest)) rest (i :: idx) =
  Ok (off + Z.of_nat (i * prod rest + rowmajor rest idx))%Z.
Proof.
  induction rest as [|e rest IH]; intros i idx off Hl Hv Hoff Hb Hp; destruct idx as [|j idx]; cbn in Hl; try lia.
  - cbn [prod rowmajor container_loop] in *. rewrite (to_size_id (Z.of_nat i * _)) by lia. rewrite to_size_id by lia.
    f_equal. lia.
  - cbn [valid] in Hv. destruct Hv as [Hj Hv].
    rewrite container_loop_cons. destruct (Nat.eqb_spec e 0) as [->|He]; [lia|].
    assert (Hrm : rowmajor rest idx < prod rest) by now apply rowmajor_lt.
    cbn [rowmajor prod] in *.
    rewrite (to_size_id (Z.of_nat i * _)) by lia.
    rewrite (to_size_id (off + _)) by lia.
    replace (Z.of_nat (e * prod rest) / Z.of_nat e)%Z with (Z.of_nat (prod rest))
      by (rewrite Nat2Z.inj_mul, Z.mul_comm, Z.div_mul; lia).
    rewrite IH; try lia; trivial.
    + f_equal. lia.
    + nia.
Qed.

Lemma container_offset_ok es idx : valid es idx -> es <> [] ->
  (Z.of_nat (prod (tl es)) < two31)%Z -> (Z.of_nat (prod es) <= two64)%Z ->
  container_offset es idx = Ok (Z.of_nat (rowmajor es idx)).
Proof.
  pose proof two_vals as (T1 & T2 & T3).
  intros Hv Hne H31 H64. unfold container_offset.
  rewrite (valid_length _ _ Hv), Nat.eqb_refl.
  destruct es as [|e es]; [congruence|]. destruct idx as [|i idx]; [cbn in Hv; tauto|].
  cbn [tl] in *. cbn [valid] in Hv. destruct Hv as [Hi Hv].
  assert (Hrm : rowmajor es idx < prod es) by now apply rowmajor_lt.
  rewrite acc_int_ok by lia. rewrite to_size_id by lia.
  assert (Hb : i * prod es + rowmajor es idx < prod (e :: es)).
  { cbn [prod fold_right]; fold (prod es). nia. }
  rewrite container_loop_ok; trivial; try lia.
  - now apply valid_length.
Qed.

Lemma container_wrap :
  let n := Z.to_nat 65536 in let es := [2; n; n] in
  valid es [0;0;0] /\ valid es [1;0;0] /\ container_offset es [0;0;0] = Ok 0%Z /\ container_offset es [1;0;0] = Ok 0%Z.
Proof.
  cbv zeta. repeat split; try (cbn [valid]; lia); vm_compute; reflexivity.
Qed.

(** ** getCoordinate *)
Lemma coord_loop_ok es : forall off dim, off < prod es -> dim < length es ->
  coord_loop off (prod es) es dim = Ok (nth dim (unrank es off) 0).
Proof.
  induction es as [|e es IH]; intros off dim Hoff Hd; cbn [length] in Hd; [lia|].
  cbn [coord_loop prod fold_right unrank] in *. fold (prod es) in *.
  assert (He : e <> 0) by nia. assert (Hp : prod es <> 0) by nia.
  destruct (Nat.eqb_spec e 0) as [|_]; [lia|].
  rewrite (Nat.mul_comm e), Nat.div_mul by lia.
  destruct (Nat.eqb_spec (prod es) 0) as [|_]; [lia|].
  destruct dim as [|k]; cbn [nth]; [reflexivity|].
  apply IH; [now apply Nat.mod_upper_bound|lia].
Qed.

Lemma getCoordinate_spec {A} (a : marray A) off dim : wf a -> off < length (flat a) -> dim < length (exts a) ->
  getCoordinate a off dim = Ok (nth dim (unrank (exts a) off) 0).
Proof. intros Hwf Ho Hd. unfold getCoordinate. rewrite Hwf. apply coord_loop_ok; [now rewrite <- Hwf|assumption]. Qed.

(** ** Constructors *)
Lemma prod64_gen l : forall p, fold_left (fun acc e => ((acc * Z.of_nat e) mod two64)%Z) l (p mod two64)%Z
  = ((p * Z.of_nat (prod l)) mod two64)%Z.
Proof.
  induction l as [|e l IH]; intros p; cbn [fold_left prod fold_right].
  - f_equal. lia.
  - rewrite Z.mul_mod_idemp_l by (unfold two64; lia). rewrite IH. fold (prod l). f_equal. lia.
Qed.
Lemma prod64_mod l : prod64 l = (Z.of_nat (prod l) mod two64)%Z.
Proof. unfold prod64. change 1%Z with (1 mod two64)%Z at 1. rewrite prod64_gen. f_equal. lia. Qed.

Lemma prod32_gen l : forall p, fold_left (fun acc e => ((acc * Z.of_nat e) mod two32)%Z) l (p mod two32)%Z
  = ((p * Z.of_nat (prod l)) mod two32)%Z.
Proof.
  induction l as [|e l IH]; intros p; cbn [fold_left prod fold_right].
  - f_equal. lia.
  - rewrite Z.mul_mod_idemp_l by (unfold two32; lia). rewrite IH. fold (prod l). f_equal. lia.
Qed.
Lemma prod32_mod l : prod32 l = Z.to_nat (Z.of_nat (prod l) mod two32).
Proof. unfold prod32. change 1%Z with (1 mod two32)%Z at 1. rewrite prod32_gen. do 2 f_equal. lia. Qed.
Lemma prod32_ok l : (Z.of_nat (prod l) < two32)%Z -> prod32 l = prod l.
Proof. intros H. rewrite prod32_mod, Z.mod_small by lia. lia. Qed.

Lemma ctor_range_spec {A} rank dims (init : list A) :
  (Z.of_nat (prod dims) < two64)%Z ->
  (length dims = rank /\ length init = prod dims /\ ctor_range rank dims init = Ok (MArr dims init))
  \/ (~ (length dims = rank /\ length init = prod dims) /\ ctor_range rank dims init = Throw LogicError).
Proof.
  intros Hb. unfold ctor_range, compute_total_size.
  destruct (Nat.eqb_spec (length dims) rank) as [Hr|Hr]; cbn [obind].
  - rewrite prod64_mod, Z.mod_small by lia.
    destruct (Z.eqb_spec (Z.of_nat (length init)) (Z.of_nat (prod dims))) as [H|H].
    + left. repeat split; lia.
    + right. split; [lia|reflexivity].
  - right. split; [tauto|reflexivity].
Qed.

Lemma flat_map_length_const {A B} (f : A -> list B) n l : (forall x, In x l -> length (f x) = n) ->
  length (flat_map f l) = length l * n.
Proof.
  induction l as [|x l IH]; intros H; cbn; [reflexivity|].
  rewrite app_length, IH, H; cbn; auto. intros y Hy; apply H; now right.
Qed.

Lemma flatten_length {A} es : forall (x : nested A (length es)), shape_ok es x = true -> length (flatten _ x) = prod es.
Proof.
  induction es as [|e es IH]; cbn [length nested shape_ok flatten prod fold_right]; intros x Hs; [reflexivity|].
  apply andb_true_iff in Hs as [H1 H2]. apply Nat.eqb_eq in H1. rewrite forallb_forall in H2.
  rewrite (flat_map_length_const _ (prod es)); [exact (f_equal (fun n => n * prod es) H1)|]. intros y Hy. apply IH. now apply H2.
Qed.

(** Element of a nested initializer. *)
Fixpoint nested_at {A} (rank : nat) : nested A rank -> list nat -> option A :=
  match rank with
  | 0 => fun x idx => match idx with [] => Some x | _ => None end
  | S r => fun x idx => match idx with
                        | [] => None
                        | i :: is' => match nth_error x i with Some y => nested_at r y is' | None => None end
                        end
  end.

Lemma nth_error_flat_map {A B} (f : A -> list B) n : forall l, (forall x, In x l -> length (f x) = n) ->
  forall i k, k < n -> nth_error (flat_map f l) (i * n + k) =
    match nth_error l i with Some x => nth_error (f x) k | None => None end.
Proof.
  induction l as [|x l IH]; intros Hl i k Hk.
  - cbn [flat_map]. replace (nth_error [] i) with (@None A) by (destruct i; reflexivity). generalize (i * n + k) as m. intros [|m]; reflexivity.
  - cbn [flat_map]. assert (Hx : length (f x) = n) by (apply Hl; now left).
    destruct i as [|i]; cbn [nth_error].
    + rewrite nth_error_app1 by (cbn; lia). reflexivity.
    + rewrite nth_error_app2 by (cbn; lia). rewrite <- IH; [|intros y Hy; apply Hl; now right|assumption].
      f_equal. rewrite Hx. cbn. lia.
Qed.

Lemma flatten_at {A} es : forall (x : nested A (length es)) idx, shape_ok es x = true -> valid es idx ->
  nth_error (flatten _ x) (rowmajor es idx) = nested_at _ x idx.
Proof.
  induction es as [|e es IH]; cbn [length nested shape_ok flatten rowmajor nested_at]; intros x [|i idx] Hs Hv;
    cbn [valid] in Hv; try tauto.
  apply andb_true_iff in Hs as [H1 H2]. apply Nat.eqb_eq in H1. rewrite forallb_forall in H2.
  destruct Hv as [Hi Hv].
  rewrite (nth_error_flat_map _ (prod es)).
  - refine (eq_trans _ (eq_refl : (match nth_error x i with Some y => nested_at _ y idx | None => None end) = _)).
    destruct (nth_error x i) as [y|] eqn:E; [|reflexivity]. apply IH; trivial. apply H2. eapply nth_error_In; eauto.
  - intros y Hy. apply flatten_length. now apply H2.
  - now apply rowmajor_lt.
Qed.

(** Shape of a nested initializer, stated by the lengths of all sub-lists. *)
Fixpoint has_shape {A} (es : list nat) : nested A (length es) -> Prop :=
  match es with
  | [] => fun _ => True
  | e :: es' => fun init => length init = e /\ forall y, In y init -> has_shape es' y
  end.
Lemma shape_ok_iff {A} es : forall (x : nested A (length es)), shape_ok es x = true <-> has_shape es x.
Proof.
  induction es as [|e es IH]; cbn; intros x; [tauto|].
  rewrite andb_true_iff, Nat.eqb_eq, forallb_forall. split; intros [H1 H2]; split; trivial; intros y Hy; apply IH; auto.
Qed.

Lemma ctor_nested_spec {A} dims (x : nested A (length dims)) : (Z.of_nat (prod dims) < two64)%Z ->
  (has_shape dims x /\ exists a, ctor_nested dims x = Ok a /\ wf a /\ exts a = dims /\
       forall idx, valid dims idx -> at_idx a idx = nested_at _ x idx)
  \/ (~ has_shape dims x /\ ctor_nested dims x = Throw LogicError).
Proof.
  intros Hb. unfold ctor_nested. destruct (shape_ok dims x) eqn:Hs.
  - left. split; [now apply shape_ok_iff|].
    pose proof (flatten_length dims x Hs) as Hl.
    rewrite prod64_mod, Z.mod_small, Hl by lia. rewrite Z.eqb_refl.
    eexists; split; [reflexivity|]. unfold wf; cbn. repeat split; trivial.
    intros idx Hv. unfold at_idx; cbn. now apply flatten_at.
  - right. split; [|reflexivity]. rewrite <- shape_ok_iff. congruence.
Qed.
