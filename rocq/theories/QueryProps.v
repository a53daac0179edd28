(** C80: what a nuSQUIDS object answers to read-outs (QueryModel.v). *)
From Coq Require Import Reals List Arith Bool Lia Lra.
From Verif Require Import CMatrix FlavorModel QueryModel.
Import ListNotations.
Open Scope R_scope.

Section Answers.
  Variable ae aet : mat -> nat -> number -> R.
  Variable aea : mat -> nat -> number -> R -> R.
  Variable ant : mat -> nat -> nat -> R.
  Variable ana : mat -> R -> nat -> R.

  (** objects as the initialisers and Set_E make them, in any basis *)
  Inductive made : obj -> Prop :=
  | made_one maxdim n nt b0 b1 rho o : init_single maxdim n nt b0 b1 rho = Some o -> made o
  | made_grid maxdim n nt E b0 b1 rho o : E <> [] -> init_grid maxdim n nt E b0 b1 rho = Some o -> made o
  | made_e E o o' : made o -> set_e E o = Some o' -> made o'
  | made_basis b o : made o -> made (Obj (q_n o) (q_nrhos o) (q_ne o) (q_nt o) b (q_E o) (q_energy o) (q_init o) (q_state o) (q_full o) (q_b0 o) (q_b1 o) (q_evol o) (q_rho o))
  | made_full f o : made o -> made (Obj (q_n o) (q_nrhos o) (q_ne o) (q_nt o) (q_basis o) (q_E o) (q_energy o) (q_init o) (q_state o) f (q_b0 o) (q_b1 o) (q_evol o) (q_rho o)).

  (** Whatever was done: three flavours at least, as many matrices as kinds of
      neutrinos, one energy for each node once energies are known. *)
  Theorem c80_shape o : made o -> (3 <= q_n o)%nat /\ q_nrhos o = (match q_nt o with Both => 2%nat | _ => 1%nat end) /\ (1 <= q_ne o)%nat /\
    (q_energy o = true -> length (q_E o) = q_ne o) /\ (q_init o = false -> q_energy o = true) /\ (q_init o = true -> q_ne o = 1%nat /\ q_nt o <> Both) /\ q_state o = true.
  Proof.
    induction 1 as [maxdim n nt b0 b1 rho o I|maxdim n nt E b0 b1 rho o NE I|E o o' M IH I|b o M IH|f o M IH].
    - unfold init_single in I. destruct nt; [| |discriminate]; (destruct (Nat.ltb maxdim n); [discriminate|]; destruct (Nat.ltb_spec n 3); [discriminate|];
        injection I as <-; cbn; repeat split; try lia; try discriminate; intros; discriminate).
    - unfold init_grid in I. destruct (Nat.ltb maxdim n); [discriminate|]. destruct (Nat.ltb_spec n 3); [discriminate|]. cbn [orb] in I. injection I as <-. cbn.
      repeat split; try lia; try discriminate. destruct E; [congruence|cbn; lia].
    - unfold set_e in I. destruct (Nat.eqb_spec (q_ne o) 1) as [E1|]; [|discriminate]. injection I as <-. cbn. intuition.
    - exact IH.
    - exact IH.
  Qed.

  (** Before energies are set nothing is answered. *)
  Theorem c80_no_energy o flv E rho ei scale len : q_energy o = false ->
    eval_mass_e ae aet o flv E rho = Throws /\ eval_flavor_e ae aet o flv E rho = Throws /\
    eval_mass_avg ae aea o flv E rho scale len = Throws /\ eval_flavor_avg ae aea o flv E rho scale len = Throws /\
    eval_mass_node ant o flv ei rho = Throws /\ eval_flavor_node ant o flv ei rho = Throws /\
    eval_mass_one ant o flv = Throws /\ eval_flavor_one ant o flv = Throws /\ eval_flavor_one_avg ana o flv scale len = Throws.
  Proof.
    intro H. unfold eval_mass_e, eval_flavor_e, eval_mass_avg, eval_flavor_avg, eval_mass_node, eval_flavor_node, eval_mass_one, eval_flavor_one, eval_flavor_one_avg, refused.
    rewrite H. cbn [negb]. rewrite !orb_true_r. cbn [orb]. repeat (split; [reflexivity|]). reflexivity.
  Qed.

  (** An object for one kind of neutrinos refuses to speak of another. *)
  Theorem c80_other_type o flv E rho ei scale len : q_nt o <> Both -> rho <> 0%nat ->
    eval_mass_e ae aet o flv E rho = Throws /\ eval_flavor_e ae aet o flv E rho = Throws /\
    eval_mass_avg ae aea o flv E rho scale len = Throws /\ eval_flavor_avg ae aea o flv E rho scale len = Throws /\
    eval_mass_node ant o flv ei rho = Throws /\ eval_flavor_node ant o flv ei rho = Throws.
  Proof.
    intros H N. assert (W : wrong_type o rho = true).
    { unfold wrong_type. apply Nat.eqb_neq in N. rewrite N. destruct (q_nt o); [reflexivity|reflexivity|congruence]. }
    unfold eval_mass_e, eval_flavor_e, eval_mass_avg, eval_flavor_avg, eval_mass_node, eval_flavor_node.
    rewrite W. destruct (q_energy o); cbn [negb]; repeat (split; [reflexivity|]); reflexivity.
  Qed.

  (** For an existing flavour and kind: an energy in the grid's range gets the
      content SQuIDS gives, any other number is refused (masses: not in the mass
      basis). *)
  Definition in_range (o : obj) (x : R) : Prop := hd 0 (q_E o) <= x <= last (q_E o) 0.
  Lemma range_iff o x : out_of_range o (Num x) = false <-> in_range o x.
  Proof.
    unfold out_of_range, ltn, first_e, last_e, in_range. destruct (Rlt_dec x (hd 0 (q_E o))), (Rlt_dec (last (q_E o) 0) x); cbn; split; intros; try discriminate; try reflexivity; lra.
  Qed.
  Lemma right_type o rho : made o -> (rho < q_nrhos o)%nat -> wrong_type o rho = false.
  Proof.
    intros M H. destruct (c80_shape o M) as (_ & E & _). rewrite E in H. unfold wrong_type. destruct (q_nt o); try (assert (rho = 0%nat) as -> by lia; reflexivity).
    rewrite andb_false_r. reflexivity.
  Qed.
  Theorem c80_flavor o flv x rho : made o -> q_energy o = true -> (flv < q_n o)%nat -> (rho < q_nrhos o)%nat ->
    (in_range o x -> eval_flavor_e ae aet o flv (Num x) rho = Value (match q_basis o with BMass => ae (q_b1 o rho flv) rho (Num x) | _ => aet (q_b1 o rho flv) rho (Num x) end)) /\
    (~ in_range o x -> eval_flavor_e ae aet o flv (Num x) rho = Throws).
  Proof.
    intros M En Hf Hr. unfold eval_flavor_e. rewrite En, (right_type o rho M Hr). cbn [negb].
    split; intro R1.
    - rewrite (proj2 (range_iff o x) R1). unfold with_op, b1_at, of_state. rewrite (proj2 (Nat.ltb_lt _ _) Hf), (proj2 (Nat.ltb_lt _ _) Hr). destruct (q_basis o); reflexivity.
    - destruct (out_of_range o (Num x)) eqn:O; [reflexivity|]. apply range_iff in O. contradiction.
  Qed.
  Theorem c80_flavor_averaged o flv x rho scale len : made o -> q_energy o = true -> (flv < q_n o)%nat -> (rho < q_nrhos o)%nat ->
    (in_range o x /\ len = q_n o -> eval_flavor_avg ae aea o flv (Num x) rho scale len = Value (match q_basis o with BMass => ae (q_b1 o rho flv) rho (Num x) | _ => aea (q_b1 o rho flv) rho (Num x) scale end)) /\
    (~ in_range o x \/ len <> q_n o -> eval_flavor_avg ae aea o flv (Num x) rho scale len = Throws).
  Proof.
    intros M En Hf Hr. unfold eval_flavor_avg. rewrite En, (right_type o rho M Hr). cbn [negb]. split.
    - intros [R1 ->]. rewrite (proj2 (range_iff o x) R1), Nat.eqb_refl. cbn [negb]. unfold with_op, b1_at, of_state.
      rewrite (proj2 (Nat.ltb_lt _ _) Hf), (proj2 (Nat.ltb_lt _ _) Hr). destruct (q_basis o); reflexivity.
    - intros D. destruct (out_of_range o (Num x)) eqn:O; [reflexivity|]. apply range_iff in O. destruct D as [D|D]; [contradiction|].
      apply Nat.eqb_neq in D. rewrite D. reflexivity.
  Qed.
  Theorem c80_mass_partial o flv x rho : made o -> q_energy o = true -> (flv < q_n o)%nat -> (rho < q_nrhos o)%nat -> q_basis o <> BMass ->
    (in_range o x -> eval_mass_e ae aet o flv (Num x) rho = Value (aet (q_b0 o flv) rho (Num x))) /\
    (~ in_range o x -> eval_mass_e ae aet o flv (Num x) rho = Throws).
  Proof.
    intros M En Hf Hr B. unfold eval_mass_e. rewrite En, (right_type o rho M Hr). cbn [negb].
    assert (B' : forall X Y : answer, match q_basis o with BMass => X | _ => Y end = Y) by (intros; destruct (q_basis o); congruence).
    rewrite B'. split; intro R1.
    - rewrite (proj2 (range_iff o x) R1). unfold with_op, b0_at, of_state. rewrite (proj2 (Nat.ltb_lt _ _) Hf), (proj2 (Nat.ltb_lt _ _) Hr). reflexivity.
    - destruct (out_of_range o (Num x)) eqn:O; [reflexivity|]. apply range_iff in O. contradiction.
  Qed.
  Theorem c80_mass_averaged o flv x rho scale len : made o -> q_energy o = true -> (flv < q_n o)%nat -> (rho < q_nrhos o)%nat ->
    (in_range o x /\ len = q_n o -> eval_mass_avg ae aea o flv (Num x) rho scale len = Value (match q_basis o with BMass => ae (q_b0 o flv) rho (Num x) | _ => aea (q_b0 o flv) rho (Num x) scale end)) /\
    (~ in_range o x \/ len <> q_n o -> eval_mass_avg ae aea o flv (Num x) rho scale len = Throws).
  Proof.
    intros M En Hf Hr. unfold eval_mass_avg. rewrite En, (right_type o rho M Hr). cbn [negb]. split.
    - intros [R1 ->]. rewrite (proj2 (range_iff o x) R1), Nat.eqb_refl. cbn [negb]. unfold with_op, b0_at, of_state.
      rewrite (proj2 (Nat.ltb_lt _ _) Hf), (proj2 (Nat.ltb_lt _ _) Hr). destruct (q_basis o); reflexivity.
    - intros D. destruct (out_of_range o (Num x)) eqn:O; [reflexivity|]. apply range_iff in O. destruct D as [D|D]; [contradiction|].
      apply Nat.eqb_neq in D. rewrite D. reflexivity.
  Qed.
  (** At a node of the grid the content is that of the node's own state. *)
  Theorem c80_node o flv ei rho : made o -> q_energy o = true -> (flv < q_n o)%nat -> (ei < q_ne o)%nat -> (rho < q_nrhos o)%nat ->
    eval_flavor_node ant o flv ei rho = Value (match q_basis o with BMass => expect (q_n o) (q_b1 o rho flv) (q_rho o ei rho) | _ => ant (q_b1 o rho flv) rho ei end) /\
    eval_mass_node ant o flv ei rho = Value (match q_basis o with BMass => expect (q_n o) (q_b0 o flv) (q_rho o ei rho) | _ => ant (q_b0 o flv) rho ei end).
  Proof.
    intros M En Hf He Hr. unfold eval_flavor_node, eval_mass_node. rewrite En, (right_type o rho M Hr). cbn [negb].
    unfold with_op, b1_at, b0_at, rho_at. rewrite (proj2 (Nat.ltb_lt _ _) Hf), (proj2 (Nat.ltb_lt _ _) Hr), (proj2 (Nat.ltb_lt _ _) He). cbn [andb].
    split; destruct (q_basis o); reflexivity.
  Qed.
  (** The forms for one energy: an existing flavour is answered, any other
      refused; nothing outside is read. *)
  Theorem c80_one o flv : made o -> q_init o = true -> q_energy o = true -> q_full o = false ->
    ((flv < q_n o)%nat ->
     eval_flavor_one ant o flv = Value (match q_basis o with BMass => expect (q_n o) (q_b1 o 0%nat flv) (q_rho o 0%nat 0%nat) | _ => ant (q_b1 o 0%nat flv) 0%nat 0%nat end) /\
     eval_mass_one ant o flv = Value (match q_basis o with BMass => expect (q_n o) (q_b0 o flv) (q_rho o 0%nat 0%nat) | _ => ant (q_b0 o flv) 0%nat 0%nat end)) /\
    ((q_n o <= flv)%nat -> eval_flavor_one ant o flv = Throws /\ eval_mass_one ant o flv = Throws).
  Proof.
    intros M I En Fu. destruct (c80_shape o M) as (N & Nr & _ & _ & _ & One & St). destruct (One I) as [Ne Nt].
    assert (Nr1 : q_nrhos o = 1%nat) by (rewrite Nr; destruct (q_nt o); congruence).
    unfold eval_flavor_one, eval_mass_one, refused. rewrite St, I, En, Ne, Fu. cbn [negb orb Nat.eqb]. split; intro H.
    - rewrite (proj2 (Nat.leb_gt _ _) H). unfold with_op, b1_at, b0_at, rho_at. rewrite (proj2 (Nat.ltb_lt _ _) H), Nr1, Ne. cbn [andb Nat.ltb Nat.leb].
      split; destruct (q_basis o); reflexivity.
    - rewrite (proj2 (Nat.leb_le _ _) H). split; reflexivity.
  Qed.
  (** With the full Hamiltonian the flavours' projectors as evolved are used, averaging or not, except in the mass basis. *)
  Theorem c80_one_full o flv scale len : made o -> q_init o = true -> q_energy o = true -> q_full o = true ->
    ((flv < q_n o)%nat ->
     let v := expect (q_n o) (match q_basis o with BMass => q_b1 o 0%nat flv | _ => q_evol o 0%nat flv 0%nat end) (q_rho o 0%nat 0%nat) in
     eval_flavor_one ant o flv = Value v /\ eval_flavor_one_avg ana o flv scale len = Value v) /\
    ((q_n o <= flv)%nat -> eval_flavor_one ant o flv = Throws /\ eval_flavor_one_avg ana o flv scale len = Throws).
  Proof.
    intros M I En Fu. destruct (c80_shape o M) as (N & Nr & _ & _ & _ & One & St). destruct (One I) as [Ne Nt].
    assert (Nr1 : q_nrhos o = 1%nat) by (rewrite Nr; destruct (q_nt o); congruence).
    unfold eval_flavor_one, eval_flavor_one_avg, refused. rewrite St, I, En, Ne, Fu. cbn [negb orb Nat.eqb]. split; intro H.
    - rewrite (proj2 (Nat.leb_gt _ _) H). unfold with_op, b1_at, evol_at, rho_at. rewrite (proj2 (Nat.ltb_lt _ _) H), Nr1, Ne. cbn [andb Nat.ltb Nat.leb].
      split; destruct (q_basis o); reflexivity.
    - rewrite (proj2 (Nat.leb_le _ _) H). split; reflexivity.
  Qed.
  (** Objects for one energy and for a grid are not mixed up: Set_E and the
      forms for one energy refuse grids of more than one node. *)
  Theorem c80_modes o flv E : q_ne o <> 1%nat -> set_e E o = None /\ eval_flavor_one ant o flv = Throws /\ eval_mass_one ant o flv = Throws.
  Proof.
    intro H. apply Nat.eqb_neq in H. unfold set_e, eval_flavor_one, eval_mass_one, refused. rewrite H. cbn [negb]. rewrite !orb_true_r. cbn [orb]. repeat split.
  Qed.

  (** *** What is not refused *)
  Theorem c80_flavor_outside_refuted o flv x rho ei : made o -> q_energy o = true -> (q_n o <= flv)%nat -> (rho < q_nrhos o)%nat -> in_range o x ->
    eval_flavor_e ae aet o flv (Num x) rho = Outside /\ eval_mass_e ae aet o flv (Num x) rho = Outside /\
    eval_flavor_node ant o flv ei rho = Outside /\ eval_mass_node ant o flv ei rho = Outside.
  Proof.
    intros M En Hf Hr R1. unfold eval_flavor_e, eval_mass_e, eval_flavor_node, eval_mass_node. rewrite En, (right_type o rho M Hr), (proj2 (range_iff o x) R1). cbn [negb].
    unfold with_op, b1_at, b0_at. rewrite (proj2 (Nat.ltb_ge _ _) Hf), andb_false_r. destruct (q_basis o); repeat split.
  Qed.
  Theorem c80_node_outside_refuted o flv ei rho : made o -> q_energy o = true -> (flv < q_n o)%nat -> (rho < q_nrhos o)%nat -> (q_ne o <= ei)%nat ->
    eval_flavor_node ant o flv ei rho = Outside /\ eval_mass_node ant o flv ei rho = Outside.
  Proof.
    intros M En Hf Hr He. unfold eval_flavor_node, eval_mass_node. rewrite En, (right_type o rho M Hr). cbn [negb].
    unfold with_op, b1_at, b0_at, rho_at. rewrite (proj2 (Nat.ltb_lt _ _) Hf), (proj2 (Nat.ltb_lt _ _) Hr), (proj2 (Nat.ltb_ge _ _) He). cbn [andb].
    destruct (q_basis o); split; reflexivity.
  Qed.
  Theorem c80_kind_outside_refuted o flv x rho : made o -> q_energy o = true -> q_nt o = Both -> (2 <= rho)%nat -> in_range o x ->
    eval_flavor_e ae aet o flv (Num x) rho = Outside.
  Proof.
    intros M En Nt Hr R1. destruct (c80_shape o M) as (_ & Nr & _). rewrite Nt in Nr.
    unfold eval_flavor_e, wrong_type. rewrite En, Nt, andb_false_r, (proj2 (range_iff o x) R1). cbn [negb].
    unfold with_op, b1_at. rewrite Nr, (proj2 (Nat.ltb_ge _ _) Hr). cbn [andb]. destruct (q_basis o); reflexivity.
  Qed.
  (** Not a number is in every range. *)
  Theorem c80_not_a_number_refuted o flv rho : made o -> q_energy o = true -> (flv < q_n o)%nat -> (rho < q_nrhos o)%nat ->
    exists f, eval_flavor_e ae aet o flv NotANumber rho = Value (f (q_b1 o rho flv) rho NotANumber) /\ (f = ae \/ f = aet).
  Proof.
    intros M En Hf Hr. unfold eval_flavor_e. rewrite En, (right_type o rho M Hr). cbn [negb out_of_range ltn first_e last_e orb].
    unfold with_op, b1_at, of_state. rewrite (proj2 (Nat.ltb_lt _ _) Hf), (proj2 (Nat.ltb_lt _ _) Hr). cbn [andb]. destruct (q_basis o); eauto.
  Qed.
  (** In the mass basis masses are asked for at energies outside the grid. *)
  Theorem c80_mass_range_refuted o flv x rho : made o -> q_energy o = true -> (flv < q_n o)%nat -> (rho < q_nrhos o)%nat -> q_basis o = BMass -> ~ in_range o x ->
    eval_mass_e ae aet o flv (Num x) rho = Value (ae (q_b0 o flv) rho (Num x)).
  Proof.
    intros M En Hf Hr B _. unfold eval_mass_e. rewrite En, (right_type o rho M Hr), B. cbn [negb].
    unfold with_op, b0_at, of_state. rewrite (proj2 (Nat.ltb_lt _ _) Hf), (proj2 (Nat.ltb_lt _ _) Hr). reflexivity.
  Qed.
  (** The averaged form for one energy takes flags of any length. *)
  Theorem c80_flags_refuted o flv scale len : made o -> q_init o = true -> q_energy o = true -> q_full o = false -> q_basis o <> BMass -> (flv < q_n o)%nat ->
    eval_flavor_one_avg ana o flv scale len = Value (ana (q_b1 o 0%nat flv) scale len).
  Proof.
    intros M I En Fu B H. destruct (c80_shape o M) as (N & Nr & _ & _ & _ & One & St). destruct (One I) as [Ne Nt].
    assert (Nr1 : q_nrhos o = 1%nat) by (rewrite Nr; destruct (q_nt o); congruence).
    unfold eval_flavor_one_avg, refused. rewrite St, I, En, Ne, Fu. cbn [negb orb Nat.eqb]. rewrite (proj2 (Nat.leb_gt _ _) H).
    unfold with_op, b1_at, rho_at. rewrite (proj2 (Nat.ltb_lt _ _) H), Nr1, Ne. cbn [andb Nat.ltb Nat.leb]. destruct (q_basis o); congruence || reflexivity.
  Qed.
  (** A grid of one node never answers the forms for one energy. *)
  Theorem c80_one_node_refuted maxdim n nt E b0 b1 rho o flv : init_grid maxdim n nt [E] b0 b1 rho = Some o ->
    q_ne o = 1%nat /\ q_energy o = true /\ eval_flavor_one ant o flv = Throws.
  Proof.
    unfold init_grid. destruct (Nat.ltb maxdim n || Nat.ltb n 3); [discriminate|]. intro I. injection I as <-. repeat split.
  Qed.
  (** Energies need not increase; with a decreasing grid every energy between
      the nodes, and each node's own but one at most, is refused. *)
  Theorem c80_unsorted_refuted maxdim n nt a b b0 b1 rho o flv x r : b < a -> init_grid maxdim n nt [a; b] b0 b1 rho = Some o ->
    eval_flavor_e ae aet o flv (Num x) r = Throws.
  Proof.
    intros L. unfold init_grid. destruct (Nat.ltb maxdim n || Nat.ltb n 3); [discriminate|]. intro I. injection I as <-.
    unfold eval_flavor_e. cbn [q_energy negb]. destruct (wrong_type _ r); [reflexivity|].
    unfold out_of_range, ltn, first_e, last_e. cbn [q_E hd last]. destruct (Rlt_dec x a), (Rlt_dec b x); cbn; try reflexivity. lra.
  Qed.
End Answers.

(** A case: three flavours of both kinds on a grid of three nodes. *)
Example c80_nonvacuous : exists o, init_grid 6 3 Both [1; 2; 4] (fun k => ket_proj k) (fun _ k => ket_proj k) (fun ei r => ket_proj ei) = Some o /\
  made o /\ q_energy o = true /\ q_nrhos o = 2%nat /\ in_range o 3 /\ ~ in_range o 5 /\ (exists s, init_single 6 3 Neutrino (fun k => ket_proj k) (fun _ k => ket_proj k) (fun _ _ => ket_proj 0) = Some s /\
  q_init s = true /\ q_energy s = false /\ exists s', set_e 2 s = Some s' /\ made s' /\ q_energy s' = true /\ q_full s' = false).
Proof.
  eexists. split; [reflexivity|]. split; [|split; [reflexivity|split; [reflexivity|split; [|split]]]].
  - apply (made_grid 6 3 Both [1; 2; 4] (fun k => ket_proj k) (fun _ k => ket_proj k) (fun ei r => ket_proj ei)); [discriminate|reflexivity].
  - unfold in_range. cbn. lra.
  - unfold in_range. cbn. lra.
  - eexists. split; [reflexivity|]. split; [reflexivity|]. split; [reflexivity|]. eexists. split; [reflexivity|]. split; [|split; reflexivity].
    refine (made_e 2 _ _ (made_one 6 3 Neutrino (fun k => ket_proj k) (fun _ k => ket_proj k) (fun _ _ => ket_proj 0) _ eq_refl) eq_refl).
Qed.
Print Assumptions c80_shape.
Print Assumptions c80_no_energy.
Print Assumptions c80_other_type.
Print Assumptions c80_flavor.
Print Assumptions c80_flavor_averaged.
Print Assumptions c80_mass_partial.
Print Assumptions c80_mass_averaged.
Print Assumptions c80_one_full.
Print Assumptions c80_node.
Print Assumptions c80_one.
Print Assumptions c80_modes.
Print Assumptions c80_flavor_outside_refuted.
Print Assumptions c80_node_outside_refuted.
Print Assumptions c80_kind_outside_refuted.
Print Assumptions c80_not_a_number_refuted.
Print Assumptions c80_mass_range_refuted.
Print Assumptions c80_flags_refuted.
Print Assumptions c80_one_node_refuted.
Print Assumptions c80_unsorted_refuted.
