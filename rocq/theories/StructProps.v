(** Copying and comparing interaction tables (C53). *)
From Coq Require Import List Arith Bool ZArith Lia.
From Verif Require Import StructModel.
Import ListNotations.

(** ** Specification *)

(** the eight arrays *)
Definition arrays {D} (s : istruct D) : list (arr D) :=
  [dNdE_CC s; dNdE_NC s; dNdE_GR s; sigma_CC s; sigma_NC s; sigma_GR s; tau_all s; tau_lep s].

(** two arrays have the same items *)
Definition same_items {D} (deq : D -> D -> bool) (a b : arr D) : Prop :=
  Forall2 (fun x y => deq x y = true) (a_data a) (a_data b).

Section Proofs.
Variable D : Type.
Variable deq : D -> D -> bool.

Lemma std_equal_spec a b : length a = length b ->
  exists v, std_equal deq a b = Some v /\ (v = true <-> Forall2 (fun x y => deq x y = true) a b).
Proof.
  revert b. induction a as [|x a IH]; intros [|y b] L; try discriminate L.
  - exists true. split; [reflexivity|]. split; [constructor|reflexivity].
  - cbn [std_equal]. destruct (deq x y) eqn:E.
    + destruct (IH b) as (v & E1 & S); [injection L as L; exact L|]. exists v. split; [exact E1|].
      rewrite S. split; [intro F; constructor; assumption|intro F; inversion F; assumption].
    + exists false. split; [reflexivity|]. split; [discriminate|]. intro F. inversion F; congruence.
Qed.

Lemma check_spec (a b : arr D) rest v : length (a_data a) = length (a_data b) -> rest = Some v ->
  exists w, check deq a b rest = Some w /\ (w = true <-> same_items deq a b /\ v = true).
Proof.
  intros L ->. unfold check. destruct (std_equal_spec (a_data a) (a_data b) L) as (w & E & S). rewrite E.
  destruct w.
  - exists v. split; [reflexivity|]. unfold same_items. rewrite <- S. tauto.
  - exists false. split; [reflexivity|]. unfold same_items. rewrite <- S. split; [discriminate|intros (X & _); exact X].
Qed.

Lemma split8 {A} (P : A -> A -> Prop) a1 a2 a3 a4 a5 a6 a7 a8 b1 b2 b3 b4 b5 b6 b7 b8 :
  Forall2 P [a1; a2; a3; a4; a5; a6; a7; a8] [b1; b2; b3; b4; b5; b6; b7; b8] ->
  P a1 b1 /\ P a2 b2 /\ P a3 b3 /\ P a4 b4 /\ P a5 b5 /\ P a6 b6 /\ P a7 b7 /\ P a8 b8.
Proof. intro F. repeat match goal with F : Forall2 _ (_ :: _) _ |- _ => inversion F; clear F; subst end. tauto. Qed.

Lemma Forall2_length {A} (P : A -> A -> Prop) a b : Forall2 P a b -> length a = length b.
Proof. intro F. induction F; cbn; congruence. Qed.

Lemma lengths (s o : istruct D) : Forall2 (same_items deq) (arrays s) (arrays o) ->
  let same (f : istruct D -> arr D) := length (a_data (f s)) = length (a_data (f o)) in
  same dNdE_CC /\ same dNdE_NC /\ same dNdE_GR /\ same sigma_CC /\ same sigma_NC /\ same sigma_GR /\
  same tau_all /\ same tau_lep.
Proof.
  intro F. apply split8 in F. destruct F as (F1 & F2 & F3 & F4 & F5 & F6 & F7 & F8).
  refine (conj _ (conj _ (conj _ (conj _ (conj _ (conj _ (conj _ _))))))); eapply Forall2_length; eassumption.
Qed.

Lemma equal_spec s o : exists v, equal deq s o = Some v /\
  (v = true <-> Forall2 (same_items deq) (arrays s) (arrays o)).
Proof.
  unfold equal.
  destruct (_ || _) eqn:N.
  - exists false. split; [reflexivity|]. split; [discriminate|]. intro F. exfalso.
    apply lengths in F.
    unfold size in N. destruct F as (L1 & L2 & L3 & L4 & L5 & L6 & L7 & L8).
    rewrite L1, L2, L3, L4, L5, L6, L7, L8 in N.
    rewrite !Nat.eqb_refl in N. discriminate N.
  - rewrite !orb_false_iff, !negb_false_iff, !Nat.eqb_eq in N. unfold size in N.
    destruct N as (((((((N1 & N2) & N3) & N4) & N5) & N6) & N7) & N8).
    destruct (check_spec (tau_lep s) (tau_lep o) (Some true) true N8 eq_refl) as (v8 & E8 & S8).
    destruct (check_spec (tau_all s) (tau_all o) _ v8 N7 E8) as (v7 & E7 & S7).
    destruct (check_spec (sigma_GR s) (sigma_GR o) _ v7 N6 E7) as (v6 & E6 & S6).
    destruct (check_spec (sigma_NC s) (sigma_NC o) _ v6 N5 E6) as (v5 & E5 & S5).
    destruct (check_spec (sigma_CC s) (sigma_CC o) _ v5 N4 E5) as (v4 & E4 & S4).
    destruct (check_spec (dNdE_GR s) (dNdE_GR o) _ v4 N3 E4) as (v3 & E3 & S3).
    destruct (check_spec (dNdE_NC s) (dNdE_NC o) _ v3 N2 E3) as (v2 & E2 & S2).
    destruct (check_spec (dNdE_CC s) (dNdE_CC o) _ v2 N1 E2) as (v1 & E1 & S1).
    exists v1. split; [exact E1|]. rewrite S1, S2, S3, S4, S5, S6, S7, S8. unfold arrays. split.
    + intros (A1 & A2 & A3 & A4 & A5 & A6 & A7 & A8 & _). repeat (constructor; [assumption|]). constructor.
    + intro F. apply split8 in F. tauto.
Qed.
End Proofs.

(** ** C53 *)

(** Copies, moves and assignments take over all eight arrays, with extents. *)
Theorem c53_arrays_partial D (o d : istruct D) :
  arrays (copy_ctor o) = arrays o /\ arrays (move_ctor o) = arrays o /\
  arrays (copy_assign d o) = arrays o /\ arrays (move_assign d o) = arrays o.
Proof. repeat split. Qed.

(** A new structure has no targets and its arrays no items, each with as many extents as it has indices. *)
Theorem c53_new D : let s := new_struct D in targets s = [] /\ Forall (fun a => a_data a = [] /\ Forall (eq 0) (a_shape a)) (arrays s) /\
  map (fun a => length (a_shape a)) [dNdE_CC s; dNdE_NC s; sigma_CC s; sigma_NC s] = [5; 5; 4; 4] /\
  map (fun a => length (a_shape a)) [dNdE_GR s; sigma_GR s; tau_all s; tau_lep s] = [2; 1; 3; 3].
Proof. cbn. repeat split; repeat constructor. Qed.
Print Assumptions c53_new.

(** The list of targets is lost: a copy of tables that have any is not the
    original, and an assignment keeps the old list. *)
Theorem c53_targets_refuted D (o d : istruct D) : targets o <> [] -> targets d <> targets o ->
  targets (copy_ctor o) <> targets o /\ targets (move_ctor o) <> targets o /\
  targets (copy_assign d o) <> targets o /\ targets (move_assign d o) <> targets o.
Proof. intros H1 H2. cbn. repeat split; congruence. Qed.

(** The comparison is always defined, and true exactly if all arrays have the
    same items in storage order. *)
Theorem c53_equal_items D deq (s o : istruct D) : exists v, equal deq s o = Some v /\
  (v = true <-> Forall2 (same_items deq) (arrays s) (arrays o)) /\ not_equal deq s o = Some (negb v).
Proof.
  destruct (equal_spec D deq s o) as (v & E & S). exists v. split; [exact E|]. split; [exact S|].
  unfold not_equal. rewrite E. reflexivity.
Qed.

(** So a copy is equal to the original unless the original has an item that is
    not equal to itself. *)
Theorem c53_copy_equal D deq (o : istruct D) :
  (forall a x, In a (arrays o) -> In x (a_data a) -> deq x x = true) ->
  equal deq (copy_ctor o) o = Some true.
Proof.
  intro H. destruct (equal_spec D deq (copy_ctor o) o) as (v & E & S). rewrite E. f_equal. apply S.
  change (arrays (copy_ctor o)) with (arrays o). revert H. generalize (arrays o). intro l.
  induction l as [|a l IH]; intro H; constructor.
  - unfold same_items. specialize (H a). revert H. generalize (a_data a). intro d.
    induction d as [|x d IHd]; intro H; constructor; [apply H; left; reflexivity|].
    apply IHd. intros y _ Y. apply H; [left; reflexivity|right; exact Y].
  - apply IH. intros b x B. apply H. right. exact B.
Qed.

(** Tables made by objects with the same numbers of types, flavours and nodes
    have equal extents if they compare equal. *)
Theorem c53_equal_shapes_partial D deq (s o : istruct D) nrhos numneu ne w n m :
  (0 < nrhos)%nat -> (0 < numneu)%nat -> (0 < w)%nat -> well s -> well o ->
  sized_for n nrhos numneu ne w s -> sized_for m nrhos numneu ne w o ->
  equal deq s o = Some true -> map a_shape (arrays s) = map a_shape (arrays o).
Proof.
  intros Hr Hf Hw (_ & _ & _ & W1 & _) (_ & _ & _ & W2 & _) S O E.
  destruct (equal_spec D deq s o) as (v & E' & Sp). rewrite E in E'. injection E' as <-.
  pose proof (lengths D deq s o (proj1 Sp eq_refl)) as (_ & _ & _ & L & _).
  destruct S as (S1 & S2 & S3 & S4 & S5 & S6 & S7 & S8). destruct O as (O1 & O2 & O3 & O4 & O5 & O6 & O7 & O8).
  unfold filled in W1, W2. rewrite S4 in W1. rewrite O4 in W2. cbn [fold_right] in W1, W2.
  assert (N : n = m).
  { rewrite W1, W2 in L. rewrite Nat.mul_1_r in L. apply Nat.mul_cancel_r in L; [exact L|]. nia. }
  subst m. unfold arrays. cbn [map]. congruence.
Qed.

(** In general it says nothing on extents and targets. *)
Theorem c53_equal_blind_refuted D deq (s : istruct D) t a b x y :
  (forall a x, In a (arrays s) -> In x (a_data a) -> deq x x = true) ->
  sigma_CC s = Arr a (a_data (sigma_CC s)) -> sigma_NC s = Arr b (a_data (sigma_NC s)) ->
  x <> a -> y <> b -> t <> targets s ->
  exists o, equal deq o s = Some true /\ targets o <> targets s /\
    a_shape (sigma_CC o) <> a_shape (sigma_CC s) /\ a_shape (sigma_NC o) <> a_shape (sigma_NC s).
Proof.
  intros H A B Hx Hy Ht.
  exists (Istruct t (dNdE_CC s) (dNdE_NC s) (dNdE_GR s) (Arr x (a_data (sigma_CC s)))
    (Arr y (a_data (sigma_NC s))) (sigma_GR s) (tau_all s) (tau_lep s)).
  split; [|cbn; rewrite A, B; auto].
  rewrite <- (c53_copy_equal D deq s H). reflexivity.
Qed.

(** tables of a proton and neutron library for one node and one type *)
Definition s_ex : istruct nat :=
  let a4 := Arr [2; 1; 3; 4] (repeat 1 24) in let a5 := Arr [2; 1; 3; 1; 4] (repeat 2 24) in
  Istruct [2212%Z; 2112%Z] a5 a5 (Arr [1; 4] [0; 0; 0; 0]) a4 a4 (Arr [4] [5; 0; 0; 0])
          (Arr [1; 1; 4] [7; 0; 0; 0]) (Arr [1; 1; 4] [8; 0; 0; 0]).

(** a well-formed pair that compares equal though one has two targets and
    three flavours and the other three targets and two flavours *)
Definition o_ex : istruct nat :=
  let a4 := Arr [3; 1; 2; 4] (repeat 1 24) in let a5 := Arr [3; 1; 2; 1; 4] (repeat 2 24) in
  Istruct [1%Z; 2%Z; 3%Z] a5 a5 (Arr [1; 4] [0; 0; 0; 0]) a4 a4 (Arr [4] [5; 0; 0; 0])
          (Arr [1; 1; 4] [7; 0; 0; 0]) (Arr [1; 1; 4] [8; 0; 0; 0]).

Example c53_nonvacuous :
  well s_ex /\ sized_for 2 1 3 1 4 s_ex /\ well o_ex /\ sized_for 3 1 2 1 4 o_ex /\
  equal Nat.eqb s_ex o_ex = Some true /\ equal Nat.eqb (copy_ctor s_ex) s_ex = Some true /\
  targets (copy_ctor s_ex) = [] /\ equal Nat.eqb s_ex (new_struct nat) = Some false /\
  not_equal Nat.eqb s_ex (new_struct nat) = Some true.
Proof. repeat split. Qed.

Print Assumptions c53_arrays_partial.
Print Assumptions c53_targets_refuted.
Print Assumptions c53_equal_items.
Print Assumptions c53_copy_equal.
Print Assumptions c53_equal_shapes_partial.
Print Assumptions c53_equal_blind_refuted.
