(** C84: Python methods (PyBindModel.v). *)
From Coq Require Import List Arith ZArith Bool Reals Lra Lia String.
From Verif Require Import Err MarrayModel PyModel PyBindModel.
Import ListNotations.
Local Open Scope string_scope.

(** ** Specification *)
(** a binding is faithful if the member has the name Python uses *)
Definition faithful (p : string * string) : bool := String.eqb (fst p) (snd p).
(** the two wrappers around members of the same name and the methods whose names are misspelt *)
Definition excused : list (string * string) :=
  [("Set_GSL_step", "wrap_Set_GSL_STEP"); ("Set_GSL_step", "wrap_nusqatm_Set_GSL_STEP");
   ("Set_PositivyConstrain", "Set_PositivityConstrain"); ("Set_PositivyConstrainStep", "Set_PositivityConstrainStep")].
Definition stepper_named (s : string) (t : stepper) : Prop :=
  match t with
  | Rk2 => s = "GSL_STEP_RK2" | Rk4 => s = "GSL_STEP_RK4" | Rkf45 => s = "GSL_STEP_RKF45" | Rkck => s = "GSL_STEP_RKCK"
  | Rk8pd => s = "GSL_STEP_RK8PD" | Msadams => s = "GSL_STEP_MSADAMS"
  end.

(** Every Python method of every class but one reaches the C++ member of its name (or its wrapper, or the member whose name it misspells). *)
Theorem c84_names_partial : forall c l n m, In (c, l) py_classes -> In (n, m) l -> (c, n) <> ("EarthAtm", "SetAtmosphereHeight") -> n = m \/ In (n, m) excused.
Proof.
  intros c l n m Hc Hn Hx.
  assert (A : forallb (fun cl => forallb (fun p => faithful p || existsb (fun q => String.eqb (fst q) (fst p) && String.eqb (snd q) (snd p)) excused
     || (String.eqb (fst cl) "EarthAtm" && String.eqb (fst p) "SetAtmosphereHeight")) (snd cl)) py_classes = true) by (vm_compute; reflexivity).
  rewrite forallb_forall in A. specialize (A _ Hc). rewrite forallb_forall in A. specialize (A _ Hn). cbn [fst snd] in A.
  apply orb_true_iff in A. destruct A as [A|A].
  - apply orb_true_iff in A. destruct A as [A|A]; [left; now apply String.eqb_eq in A|right].
    apply existsb_exists in A. destruct A as ([a b] & Q1 & Q2). cbn [fst snd] in Q2. apply andb_true_iff in Q2. destruct Q2 as [E1 E2]. apply String.eqb_eq in E1, E2. now subst.
  - apply andb_true_iff in A. destruct A as [E1 E2]. apply String.eqb_eq in E1, E2. subst. congruence.
Qed.
(** Methods with one name in a class all reach one member: which of them is found does not matter. *)
Theorem c84_names_agree : forall c l n m m', In (c, l) py_classes -> In (n, m) l -> In (n, m') l -> m = m'.
Proof.
  intros c l n m m' Hc H1 H2.
  assert (A : forallb (fun cl => forallb (fun p => forallb (fun q => negb (String.eqb (fst p) (fst q)) || String.eqb (snd p) (snd q)) (snd cl)) (snd cl)) py_classes = true) by (vm_compute; reflexivity).
  rewrite forallb_forall in A. specialize (A _ Hc). rewrite forallb_forall in A. specialize (A _ H1). rewrite forallb_forall in A. specialize (A _ H2). cbn [fst snd] in A.
  rewrite String.eqb_refl in A. now apply String.eqb_eq in A.
Qed.
(** From Python the height of the atmosphere cannot be set: the setter is bound to the getter. *)
Theorem c84_height_refuted : forall o h, atm_call "SetAtmosphereHeight" [h] o = Throw OtherExn /\ atm_call "SetAtmosphereHeight" [] o = Ok (Some (a_height o), o) /\
  forall n args v o', atm_call n args o = Ok (v, o') -> o' = o.
Proof.
  intros o h. split; [reflexivity|]. split; [reflexivity|]. intros n args v o'. unfold atm_call. destruct (bound_to "EarthAtm" n) as [m|] eqn:B; [|discriminate].
  unfold atm_member. destruct (String.eqb_spec m "GetRadius"); [destruct args; congruence|]. destruct (String.eqb_spec m "GetAtmosphereHeight"); [destruct args; congruence|].
  destruct (String.eqb_spec m "SetAtmosphereHeight") as [->|]; [|discriminate]. exfalso. unfold bound_to in B.
  assert (L : lookup_class "EarthAtm" = Some py_EarthAtm) by reflexivity. rewrite L in B. destruct (find _ py_EarthAtm) as [[a b]|] eqn:F; [|discriminate]. cbn in B. injection B as ->.
  apply find_some in F. destruct F as [F _]. assert (N : forallb (fun p => negb (String.eqb (snd p) "SetAtmosphereHeight")) py_EarthAtm = true) by (vm_compute; reflexivity).
  rewrite forallb_forall in N. specialize (N _ F). cbn in N. discriminate.
Qed.
(** while the members do what their names say *)
Theorem c84_height_member : forall o h, atm_member "SetAtmosphereHeight" [h] o = Ok (None, Atm (a_radius o) h) /\ atm_call "GetAtmosphereHeight" [] (Atm (a_radius o) h) = Ok (Some h, Atm (a_radius o) h).
Proof. intros o h. split; reflexivity. Qed.

(** An array given as initial state reaches the member of its own rank, whatever the order of registration, and only ranks 1 to 3 (an ensemble: 3 and 4) of a type that can be read are taken. *)
Lemma conv_rank {raw} (a : ndarray raw) d : convertible d a = true -> d = List.length (nd_shape a) /\ sane (nd_type a) = true.
Proof.
  unfold convertible, get_contiguous. intros H. apply andb_true_iff in H. destruct H as [H1 H2]. apply Nat.eqb_eq in H1. destruct (contiguous a); cbn in *; auto.
Qed.
Lemma conv_iff {raw} (a : ndarray raw) d : convertible d a = Nat.eqb (List.length (nd_shape a)) d && sane (nd_type a).
Proof. unfold convertible, get_contiguous. destruct (contiguous a); reflexivity. Qed.
Theorem c84_overloads : forall raw (a : ndarray raw) dims, resolve (initial_state_overloads dims) a = (if sane (nd_type a) && existsb (Nat.eqb (List.length (nd_shape a))) dims then Some (List.length (nd_shape a)) else None).
Proof.
  intros raw a dims. unfold resolve, initial_state_overloads. rewrite <- map_rev.
  replace (existsb (Nat.eqb (List.length (nd_shape a))) dims) with (existsb (Nat.eqb (List.length (nd_shape a))) (rev dims)).
  2:{ apply eq_iff_eq_true. rewrite !existsb_exists. split; intros (d & H1 & H2); exists d; (split; [|exact H2]); [apply in_rev in H1|apply -> in_rev]; assumption. }
  induction (rev dims) as [|d l IH]; cbn [map find existsb option_map]; [now rewrite andb_false_r|]. cbn [fst]. rewrite conv_iff.
  destruct (Nat.eqb_spec (List.length (nd_shape a)) d) as [<-|N]; cbn [andb orb].
  - destruct (sane (nd_type a)); cbn [andb option_map snd]; [reflexivity|]. rewrite IH. now rewrite ?andb_false_r.
  - exact IH.
Qed.
Theorem c84_initial_state : forall raw (a : ndarray raw),
  (resolve nus_initial a = Some (List.length (nd_shape a)) <-> sane (nd_type a) = true /\ (1 <= List.length (nd_shape a) <= 3)%nat) /\
  (resolve atm_initial a = Some (List.length (nd_shape a)) <-> sane (nd_type a) = true /\ (3 <= List.length (nd_shape a) <= 4)%nat) /\
  (forall d, resolve nus_initial a = Some d \/ resolve atm_initial a = Some d -> d = List.length (nd_shape a)).
Proof.
  intros raw a. unfold nus_initial, atm_initial. rewrite !c84_overloads. generalize (List.length (nd_shape a)). intros k. destruct (sane (nd_type a)); cbn [andb].
  - destruct k as [|[|[|[|[|k]]]]]; cbn; repeat split; intros; try discriminate; try lia; try tauto; try (destruct H; congruence); try (destruct H as [H|H]; congruence).
  - repeat split; intros; try discriminate; try (destruct H; discriminate).
Qed.

(** Each constant selects the stepper of its name, for objects and for all nodes of an ensemble; a value that is none of them changes nothing. *)
Theorem c84_steppers : forall s v, In (s, v) step_names -> forall old olds, stepper_named s (wrap_step v old) /\ wrap_step_atm v olds = map (wrap_step v) olds.
Proof. intros s v H old olds. cbn in H. repeat destruct H as [H|H]; try (injection H as <- <-; split; reflexivity). contradiction. Qed.
Theorem c84_unknown_stepper : forall v old olds, (forall s, ~ In (s, v) step_names) -> wrap_step v old = old /\ wrap_step_atm v olds = olds.
Proof.
  intros v old olds H. destruct v as [|[|[|[|[|[|v]]]]]]; try (split; reflexivity);
  exfalso; [apply (H "GSL_STEP_RK2")|apply (H "GSL_STEP_RK4")|apply (H "GSL_STEP_RKF45")|apply (H "GSL_STEP_RKCK")|apply (H "GSL_STEP_RK8PD")|apply (H "GSL_STEP_MSADAMS")]; cbn; tauto.
Qed.

(** Sequences of items with truth values arrive as these values. *)
Theorem c84_bools : forall l, to_bools (map (fun b : bool => Some (if b then TTrue else TFalse)) l) = Ok l.
Proof. induction l as [|b l IH]; cbn [map to_bools]; [reflexivity|]. rewrite IH. now destruct b. Qed.
(** An item without a truth value is taken as true instead of being refused. *)
Theorem c84_bool_error_refuted : forall l1 l2, exists r, to_bools (map (fun b : bool => Some (if b then TTrue else TFalse)) l1 ++ [Some TError] ++ map (fun b : bool => Some (if b then TTrue else TFalse)) l2) = Ok r /\ nth_error r (List.length l1) = Some true.
Proof.
  intros l1 l2. exists (l1 ++ true :: l2)%list. split.
  - induction l1 as [|b l1 IH]; cbn [map app to_bools]; [now rewrite c84_bools|]. cbn [app] in IH. rewrite IH. now destruct b.
  - rewrite nth_error_app2, Nat.sub_diag by lia. reflexivity.
Qed.
(** An item that cannot be taken is a null pointer that is read. *)
Theorem c84_bool_missing_refuted : forall l1 l2, to_bools (map Some l1 ++ [None] ++ l2) = UB.
Proof. induction l1 as [|t l1 IH]; intros l2; cbn [map app to_bools]; [reflexivity|]. cbn [app] in IH. now rewrite IH. Qed.
(** The caller's list never shows which oscillations were averaged, though that is what the argument is for: the call gives the content right. *)
Theorem c84_mask_refuted : forall eval mask v, to_bools mask = Ok v -> py_eval eval mask = Ok (fst (eval v), mask).
Proof. intros eval mask v H. unfold py_eval. now rewrite H. Qed.

(** ** Cases that meet the hypotheses *)
Example c84_example : In ("EarthAtm", py_EarthAtm) py_classes /\ In ("SetAtmosphereHeight", "GetAtmosphereHeight") py_EarthAtm /\
  In ("nuSQUIDS", py_nuSQUIDS) py_classes /\ In ("EvolveState", "EvolveState") py_nuSQUIDS /\ In ("GSL_STEP_RKCK", 3) step_names /\ wrap_step 3 Rk2 = Rkck /\ wrap_step 6 Rk4 = Rk4 /\
  (exists v, to_bools [Some TFalse; Some TFalse] = Ok v /\ (fun w : list bool => (1%R, map negb w)) v = (1%R, [true; true])).
Proof.
  assert (D : forall p q : string * string, {p = q} + {p <> q}) by (intros; repeat decide equality).
  repeat split; try (vm_compute; tauto); try (exists [false; false]; split; reflexivity).
Qed.
Example c84_example_rank : exists a : ndarray nat, resolve nus_initial a = Some 2 /\ resolve atm_initial a = None.
Proof. exists (NdArray [2; 3]%list [24%Z; 8%Z] 0%Z NFloat64 false (fun _ => 0)). split; reflexivity. Qed.

Print Assumptions c84_names_partial. Print Assumptions c84_names_agree. Print Assumptions c84_height_refuted. Print Assumptions c84_height_member. Print Assumptions c84_overloads. Print Assumptions c84_initial_state.
Print Assumptions c84_steppers. Print Assumptions c84_unknown_stepper. Print Assumptions c84_bools. Print Assumptions c84_bool_error_refuted. Print Assumptions c84_bool_missing_refuted. Print Assumptions c84_mask_refuted.
