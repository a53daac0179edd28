(** C95: the equation has one solution in steady matter, and a life it is met in. *)
From Coq Require Import Reals List Arith Bool Lia Lra.
From Verif Require Import TauModel XsModel IntModel IntProofs IntLayoutProofs IntProps StateModel StateProofs StateHistory StateLaws StateReady StateFrames StateProps.
From Verif Require Import CMatrix FlavorModel FlavorProofs FlavorProps FlavorEqn FlavorEqnProps AvgProofs SuperModel SuperProofs SuperProps PosProofs PosProps.
From Verif Require Import TransProofs TransProps EndModel EndProps FullModel FullSpec FullProofs FullProps FullExist.
Import ListNotations.
Local Open Scope R_scope.

(** ** Existence *)
Lemma voyage_exists order m emission w gs : (3 <= ob_n w)%nat -> pairs_ok (ob_n w) order ->
  Forall (fun g => sg_tau g = false /\ 0 <= l_len (sg_leg g) /\ steady m emission (l_body (sg_leg g))) gs -> forall t A, (forall e r, hermitian (ob_n w) (A e r)) ->
  exists B, voyage order m emission w t gs A B /\ forall e r, hermitian (ob_n w) (B e r).
Proof.
  intros L3 PO F. induction F as [|g gs (T & L & S1) F IH]; intros t A HA.
  - exists A. split; [apply vo_nil; intros e r _ _; apply meq_refl|exact HA].
  - destruct (IH (t + l_len (sg_leg g)) (solution order m emission w g L3 T A t (t + l_len (sg_leg g)))) as (B & V & HB); [intros e r; apply solution_herm|].
    exists B. split; [|exact HB]. apply vo_leg with (sol := solution order m emission w g L3 T A t); [exact L| | |exact V].
    + intros e r He Hr. apply solution_start; [exact He|exact Hr|apply HA].
    + intros x e r _ He Hr. apply solution_solves; assumption.
Qed.

(** Without tau regeneration, in steady matter, whatever is put in there is an outcome, and only
    one: the equation says what is read. *)
Theorem c95_settled order m emission w gs t b v : (3 <= ob_n w)%nat -> Forall (fun p => (fst p < snd p < ob_n w)%nat) order -> good_media m ->
  Forall (fair m w) gs -> Forall (fun g => sg_tau g = false /\ 0 <= l_len (sg_leg g) /\ steady m emission (l_body (sg_leg g))) gs ->
  exists B, outcome_is order m emission w t b v gs B /\
    forall B', outcome_is order m emission w t b v gs B' -> same w B B'.
Proof.
  intros L3 OO GM FA F. pose proof (ordered_ok _ _ OO) as PO.
  destruct (voyage_exists order m emission w gs L3 PO F t (put_in order w b v)) as (B & V & _).
  { intros e r. apply ini_herm. }
  exists B. split; [exact V|]. intros B' V' e r He Hr.
  apply (voyage_upper order m emission GM w 0 t gs _ _ B B' L3 PO FA V V'); [|lia|exact Hr]. intros e1 r1 _ _. apply meq_refl.
Qed.

(** ** Stopping on the way *)
(** stage [g] with another length *)
Definition cut (g : stage) (x : R) : stage := Stage (Leg (l_body (sg_leg g)) (l_shift (sg_leg g)) x) (sg_tau g) (sg_gr g) (sg_src g) (sg_one g) (sg_tab g).
Lemma voyage_cut order m emission w g x y gs2 : 0 <= x -> 0 <= y -> forall gs1 t A B,
  voyage order m emission w t (gs1 ++ cut g (x + y) :: gs2) A B -> voyage order m emission w t (gs1 ++ cut g x :: cut g y :: gs2) A B.
Proof.
  intros X Y gs1. induction gs1 as [|g1 gs1 IH]; intros t A B W; cbn [app] in *; inversion W; subst.
  - match goal with W2 : voyage _ _ _ _ _ gs2 (?s2 _) _ |- _ => rename s2 into so; rename W2 into Wr end.
    match goal with D : forall z e r, _ -> _ -> _ -> mderiv _ (fun u => so u e r) z _, M : same _ (so t) A |- _ => rename D into De; rename M into Me end.
    cbn [cut sg_leg l_len] in *. apply vo_leg with (sol := so); cbn [cut sg_leg l_len]; [exact X|exact Me| |].
    + intros z e r Z He Hr. apply De; [lra|exact He|exact Hr].
    + apply vo_leg with (sol := so); cbn [cut sg_leg l_len]; [exact Y|intros e r _ _; apply meq_refl| |].
      * intros z e r Z He Hr. apply De; [lra|exact He|exact Hr].
      * replace (t + x + y) with (t + (x + y)) by ring. exact Wr.
  - eapply vo_leg; try eassumption. apply IH. assumption.
Qed.
Theorem c95_stop e e' order m emission tab mat_of mat_of' dot dot' dec dec' s0 s0' h h' s s' t0 b v v' gs1 gs2 g x y :
  lived_all order m emission tab e mat_of dot dec s0 h s -> lived_all order m emission tab e' mat_of' dot' dec' s0' h' s' -> 0 <= x -> 0 <= y ->
  passed tab h t0 b v (gs1 ++ cut g (x + y) :: gs2) -> passed tab h' t0 b v' (gs1 ++ cut g x :: cut g y :: gs2) ->
  Forall (sound m) (gs1 ++ cut g x :: cut g y :: gs2) -> alike (object_of s) (object_of s') ->
  (forall ie r j, (ie < q_ne s)%nat -> (r < q_nrhos s)%nat -> (j < q_numneu s)%nat -> v' ie r j = v ie r j) ->
  forall ie r f, (ie < q_ne s)%nat -> (r < q_nrhos s)%nat -> (f < q_numneu s)%nat ->
    content order dec' s' ie r f = content order dec s ie r f /\ mass_content dec' s' ie r f = mass_content dec s ie r f.
Proof.
  intros L L' X Y P P' SO AL V ie r f Hi Hr Hf.
  pose proof (passed_fair order m emission tab e' mat_of' dot' dec' s0' h' s' t0 b v' _ L' P' SO) as FA'.
  pose proof AL as (N & NR & NE & NI & SS). cbn in N, NR, NE.
  assert (FA : Forall (fair m (object_of s)) (gs1 ++ cut g x :: cut g y :: gs2)).
  { eapply Forall_impl; [|exact FA']. intros g1 (F1 & F2 & F3). split; [exact F1|]. split; [exact F2|]. intro T. specialize (F3 T). cbn in F3 |- *. congruence. }
  pose proof (lived_all_min order m emission tab e mat_of dot dec s0 h s L) as L3.
  assert (OO : Forall (fun p => (fst p < snd p < q_numneu s)%nat) order) by apply L. assert (GM : good_media m) by apply L.
  destruct (c95_reading order m emission tab e mat_of dot dec s0 h s t0 b v _ L P) as (B & W & C).
  destruct (c95_reading order m emission tab e' mat_of' dot' dec' s0' h' s' t0 b v' _ L' P') as (B' & W' & C').
  apply (voyage_alike order m emission _ _ _ _ _ _ AL L3 OO FA) in W'.
  apply (voyage_cut order m emission (object_of s) g x y gs2 X Y) in W.
  assert (EQ : meq (q_numneu s) (B ie r) (B' ie r)).
  { apply (voyage_upper order m emission GM (object_of s) 0 t0 _ _ _ B B' L3 (ordered_ok _ _ OO) FA W W'); [|cbn; lia|exact Hr].
    intros e1 r1 H1 R1. cbn in H1, R1. rewrite (put_in_alike order (object_of s) (object_of s') (basis_of b) v v' e1 r1 AL OO); [apply meq_refl|cbn; lia|exact R1|].
    intros j Hj. apply V; (assumption || lia). }
  destruct (C ie r f Hi Hr Hf) as (-> & ->). destruct (C' ie r f ltac:(lia) ltac:(lia) ltac:(lia)) as (-> & ->). rewrite N.
  assert (SF : flavour order (at_node (object_of s') ie r) f = flavour order (at_node (object_of s) ie r) f) by (apply same_flavour; [apply SS; cbn; (assumption || lia)|exact OO]).
  rewrite SF. split; apply expect_meq; try apply meq_refl; apply meq_sym, EQ.
Qed.

(** ** Superposition *)
Lemma plus_zero n X : meq n (mplus X mzero) X.
Proof. intros i j _ _. unfold mplus, mzero. apply Ceq; cbn; ring. Qed.
Definition blend (a b : R) (A B : nat -> nat -> mat) (e r : nat) : mat := mplus (mscale a (A e r)) (mscale b (B e r)).
Lemma voyage_blend order m emission w a b : forall gs t A B A' B', Forall (fun g => sg_tau g = false /\ sg_src g = false) gs ->
  voyage order m emission w t gs A B -> voyage order m emission w t gs A' B' -> voyage order m emission w t gs (blend a b A A') (blend a b B B').
Proof.
  induction gs as [|g gs IH]; intros t A B A' B' F W W'; inversion W; subst; inversion W'; subst.
  - apply vo_nil. intros e r He Hr. apply mplus_meq; apply mscale_meq; match goal with X : same w _ _ |- _ => apply X; assumption end.
  - inversion F as [|? ? (T & Sr) FR]; subst.
    match goal with W1 : voyage _ _ _ _ _ gs (?s1 _) B, D1 : forall x e r, _ -> _ -> _ -> mderiv _ (fun u => ?s1 u e r) x _, S1 : same _ (?s1 t) A |- _ => rename W1 into V1; rename D1 into De1; rename S1 into St1; rename s1 into so1 end.
    match goal with W2 : voyage _ _ _ _ _ gs (?s2 _) B', D2 : forall x e r, _ -> _ -> _ -> mderiv _ (fun u => ?s2 u e r) x _, S2 : same _ (?s2 t) A' |- _ => rename W2 into V2; rename D2 into De2; rename S2 into St2; rename s2 into so2 end.
    apply vo_leg with (sol := fun x => blend a b (so1 x) (so2 x)); [assumption| | |].
    + intros e r He Hr. apply mplus_meq; apply mscale_meq; [apply St1|apply St2]; assumption.
    + intros x e r Hx He Hr. unfold blend.
      change (fun e r => mplus (mscale a (so1 x e r)) (mscale b (so2 x e r))) with (blend a b (so1 x) (so2 x)). eapply FlavorEqn.mderiv_meq; [|apply mderiv_lin; [apply De1; assumption|apply De2; assumption]].
      apply meq_sym. unfold change. eapply meq_trans; [|apply rhs_lin]. apply rhs_meq; try apply meq_refl.
      unfold supply. rewrite Sr. set (p := x - l_shift (sg_leg g)).
      assert (SN : forall r1 f1 e1, seen order w (blend a b (so1 x) (so2 x)) r1 f1 e1 = a * seen order w (so1 x) r1 f1 e1 + b * seen order w (so2 x) r1 f1 e1).
      { intros r1 f1 e1. unfold seen, blend. rewrite expect_plus_r, !expect_scale_r. reflexivity. }
      destruct (ob_int w).
      * eapply meq_trans; [|eapply meq_trans; [apply (comb_lin w 3 a b (fun f => gain m w g p (seen order w (so1 x)) r f e) (fun f => gain m w g p (seen order w (so2 x)) r f e))|]].
        -- eapply meq_trans; [apply plus_zero|].
           apply msum_meq. intros f _. rewrite <- gain_lin by exact T.
           replace (gain m w g p (seen order w (blend a b (so1 x) (so2 x))) r f e) with (gain m w g p (fun r0 f0 e0 => a * seen order w (so1 x) r0 f0 e0 + b * seen order w (so2 x) r0 f0 e0) r f e); [apply meq_refl|].
           f_equal. apply FunctionalExtensionality.functional_extensionality; intro r1. apply FunctionalExtensionality.functional_extensionality; intro f1. apply FunctionalExtensionality.functional_extensionality; intro e1. symmetry. apply SN.
        -- generalize (msum 3 (fun f => mscale (gain m w g p (seen order w (so1 x)) r f e) (flavour order (at_node w e r) f))).
           generalize (msum 3 (fun f => mscale (gain m w g p (seen order w (so2 x)) r f e) (flavour order (at_node w e r) f))).
           intros Z1 Z2. apply mplus_meq; apply mscale_meq, meq_sym, plus_zero.
      * intros i j _ _. unfold mplus, mscale, mzero. apply Ceq; cbn; ring.
    + apply IH; assumption.
Qed.

(** Without tau regeneration and emission what is read is linear in what is put in. *)
Theorem c95_superposition e e1 e2 order m emission tab M M1 M2 D D1 D2 dec dec1 dec2 s0 s01 s02 h h1 h2 s s1 s2 t0 b v v1 v2 gs a1 a2 :
  lived_all order m emission tab e M D dec s0 h s -> lived_all order m emission tab e1 M1 D1 dec1 s01 h1 s1 -> lived_all order m emission tab e2 M2 D2 dec2 s02 h2 s2 ->
  passed tab h t0 b v gs -> passed tab h1 t0 b v1 gs -> passed tab h2 t0 b v2 gs -> Forall (sound m) gs ->
  Forall (fun g => sg_tau g = false /\ sg_src g = false) gs -> alike (object_of s) (object_of s1) -> alike (object_of s) (object_of s2) ->
  (forall ie r j, (ie < q_ne s)%nat -> (r < q_nrhos s)%nat -> (j < q_numneu s)%nat -> v ie r j = a1 * v1 ie r j + a2 * v2 ie r j) ->
  forall ie r f, (ie < q_ne s)%nat -> (r < q_nrhos s)%nat -> (f < q_numneu s)%nat ->
    content order dec s ie r f = a1 * content order dec1 s1 ie r f + a2 * content order dec2 s2 ie r f /\
    mass_content dec s ie r f = a1 * mass_content dec1 s1 ie r f + a2 * mass_content dec2 s2 ie r f.
Proof.
  intros L L1 L2 P P1 P2 SO TS AL1 AL2 V ie r f Hi Hr Hf.
  pose proof (passed_fair order m emission tab e M D dec s0 h s t0 b v gs L P SO) as FA.
  pose proof (lived_all_min order m emission tab e M D dec s0 h s L) as L3.
  assert (OO : Forall (fun p => (fst p < snd p < q_numneu s)%nat) order) by apply L. assert (GM : good_media m) by apply L.
  destruct (c95_reading order m emission tab e M D dec s0 h s t0 b v gs L P) as (B & W & C).
  destruct (c95_reading order m emission tab e1 M1 D1 dec1 s01 h1 s1 t0 b v1 gs L1 P1) as (B1 & W1 & C1).
  destruct (c95_reading order m emission tab e2 M2 D2 dec2 s02 h2 s2 t0 b v2 gs L2 P2) as (B2 & W2 & C2).
  pose proof AL1 as (N1 & NR1 & NE1 & _ & SS1). cbn in N1, NR1, NE1. pose proof AL2 as (N2 & NR2 & NE2 & _ & SS2). cbn in N2, NR2, NE2.
  apply (voyage_alike order m emission _ _ _ _ _ _ AL1 L3 OO FA) in W1. apply (voyage_alike order m emission _ _ _ _ _ _ AL2 L3 OO FA) in W2.
  pose proof (voyage_blend order m emission (object_of s) a1 a2 gs t0 _ _ _ _ TS W1 W2) as WB.
  assert (EQ : meq (q_numneu s) (B ie r) (blend a1 a2 B1 B2 ie r)).
  { apply (voyage_upper order m emission GM (object_of s) 0 t0 gs _ _ _ _ L3 (ordered_ok _ _ OO) FA W WB); [|cbn; lia|exact Hr].
    intros e3 r3 H3 R3. cbn in H3, R3. unfold blend.
    rewrite (put_in_alike order (object_of s) (object_of s1) (basis_of b) v1 v1 e3 r3 AL1 OO (proj2 H3) R3 (fun _ _ => eq_refl)).
    rewrite (put_in_alike order (object_of s) (object_of s2) (basis_of b) v2 v2 e3 r3 AL2 OO (proj2 H3) R3 (fun _ _ => eq_refl)).
    unfold put_in, ini_state. eapply meq_trans; [|apply (comb_lin (object_of s))]. apply msum_meq. intros j Hj. rewrite V by (assumption || lia). apply meq_refl. }
  destruct (C ie r f Hi Hr Hf) as (-> & ->). destruct (C1 ie r f ltac:(lia) ltac:(lia) ltac:(lia)) as (-> & ->). destruct (C2 ie r f ltac:(lia) ltac:(lia) ltac:(lia)) as (-> & ->).
  rewrite N1, N2.
  assert (SF1 : flavour order (at_node (object_of s1) ie r) f = flavour order (at_node (object_of s) ie r) f) by (apply same_flavour; [apply SS1; cbn; (assumption || lia)|exact OO]).
  assert (SF2 : flavour order (at_node (object_of s2) ie r) f = flavour order (at_node (object_of s) ie r) f) by (apply same_flavour; [apply SS2; cbn; (assumption || lia)|exact OO]).
  rewrite SF1, SF2. split; rewrite (expect_meq _ _ _ _ _ (meq_refl _ _) EQ); unfold blend; rewrite expect_plus_r, !expect_scale_r; reflexivity.
Qed.

(** ** A life *)
Lemma evolve_ready e s b t : tables_fit s -> lib_ok (e_default e) -> e_default e <> None ->
  e_tau e (q_E s) = true -> q_body s = Some b -> q_track s = Some t -> q_offset s <> None ->
  has_all s = true -> o_int (q_opts s) = true -> o_src (q_opts s) = false -> o_pos (q_opts s) = false ->
  (forall s1 h dt, but_ints s1 = but_ints (put_sq_h h s) -> snd (fst (fst (e_solve e s1 dt))) = true) ->
  (forall s1 h dt, but_ints s1 = but_ints (put_sq_h h s) -> fst (fst (fst (e_solve e s1 dt))) <> []) -> sq_num (q_sq s) = true ->
  exists s' ev tb, exec e CEvolve s = (Done, s', ev) /\ In (EvTables tb) ev /\ i_tabs (q_ints s') = Some tb /\ q_opts s' = q_opts s.
Proof.
  intros F L D ET B T O H OI OS OP SV SN NM. cbn [exec]. rewrite (evolve_state_eq e b t s B T), H.
  destruct (prep_fit e s t F L D) as [(_ & X)|(s1 & P & F1 & S1 & G1 & T1)]; [congruence|].
  destruct (prep_cases e t s) as (r & s2 & P2 & _ & BI & _). rewrite P in P2. injection P2 as <- <-.
  specialize (BI eq_refl). rewrite seq_eq, P. specialize (T1 OI).
  assert (O1 : q_opts s1 = q_opts s) by (change (q_opts s1) with (q_opts (but_ints s1)); rewrite BI; reflexivity).
  assert (SH : shortcut b s = false) by (unfold shortcut; rewrite OI; cbn; rewrite andb_false_r; reflexivity).
  unfold tail_. rewrite SH, OP.
  assert (Q1 : q_track s1 = Some t) by (change (q_track s1) with (q_track (but_ints s1)); rewrite BI; exact T).
  assert (Q2 : q_body s1 = Some b) by (change (q_body s1) with (q_body (but_ints s1)); rewrite BI; exact B).
  destruct (q_offset s) as [off|] eqn:QO; [|congruence].
  assert (Q3 : q_offset s1 = Some off) by (change (q_offset s1) with (q_offset (but_ints s1)); rewrite BI; exact QO).
  assert (N1 : sq_num (q_sq s1) = true) by (change (sq_num (q_sq s1)) with (sq_num (q_sq (but_ints s1))); rewrite BI; exact NM).
  rewrite <- O1 in OI, OS. destruct (S1 OI) as [X|(tb & X1 & X2 & X3)]; [exfalso; exact (T1 X)|].
  assert (K : looks_ok s1).
  { unfold looks_ok. rewrite Q1, Q2, Q3, OS. repeat split; try discriminate. intros _. eauto. }
  assert (EV : out_res (StateModel.evolve e (tr_fin t - tr_ini t) s1) = Done /\
    In (EvTables tb) (out_evs (StateModel.evolve e (tr_fin t - tr_ini t) s1))).
  { split; [apply (evolve_ok e); [exact K|intros _; apply (SV s1 _ _ BI)]|].
    unfold StateModel.evolve, read. rewrite seq_eq. unfold emit. rewrite N1.
    specialize (SV s1 _ (tr_fin t - tr_ini t) BI). specialize (SN s1 _ (tr_fin t - tr_ini t) BI).
    destruct (e_solve e s1 (tr_fin t - tr_ini t)) as [[[ts ok] t'] st]. cbn in SV, SN. subst ok.
    destruct ts as [|x ts]; [congruence|]. rewrite seq_eq. cbn [StateModel.meach]. rewrite seq_eq.
    rewrite (pre_derive_eq x s1 t off b tb Q1 Q3 Q2 OS) by auto. rewrite OI.
    pose proof (meach_ok ts (set_q_x (x - off) s1)) as M. unfold out_res in M.
    assert (K2 : looks_ok (set_q_x (x - off) s1)) by exact K. specialize (M K2).
    destruct (StateModel.meach ts pre_derive (set_q_x (x - off) s1)) as [[r s3] e3]. cbn in M. subst r.
    cbn. tauto. }
  pose proof (evolve_keeps e _ tabs_of (tr_fin t - tr_ini t) (fun _ => eq_refl) (fun _ _ => eq_refl) (fun _ _ => eq_refl) s1) as KT. unfold keeps in KT.
  pose proof (evolve_keeps e _ q_opts (tr_fin t - tr_ini t) (fun _ => eq_refl) (fun _ _ => eq_refl) (fun _ _ => eq_refl) s1) as KO. unfold keeps in KO.
  destruct EV as (EV1 & EV2). unfold out_res, out_evs in *.
  destruct (StateModel.evolve e (tr_fin t - tr_ini t) s1) as [[r s2] e2]. cbn in EV1, EV2. subst r.
  exists s2, e2, tb. split; [reflexivity|]. split; [exact EV2|]. cbn in KT, KO. unfold tabs_of in KT. split; congruence.
Qed.


(** constant rock, cross sections all 1, a body that emits *)
Definition rock : media := Media (MkConsts 1 1 1 1 1 1) (fun _ _ => 3) (fun _ _ => 1 / 2).
Definition glow (b : body) (p : R) (e r f : nat) : R := 1.
Definition ones : itables :=
  MkT (fun _ _ _ _ _ => 1) (fun _ _ _ _ _ => 1) (fun _ _ => 1) (fun _ _ _ _ => 1) (fun _ _ _ _ => 1) (fun _ => 1) (fun _ _ _ => 1) (fun _ _ _ => 1).
Definition ones_tab (t : tabs) (E : list R) (k : nt) : itables := ones.
Definition renv : env := steady_env order3 rock glow ones_tab (Some lib1).

Lemma rock_good : good_media rock.
Proof. split; [unfold good_consts; cbn; repeat split; lra|]. intros b p. cbn. lra. Qed.
Lemma renv_exact : exact_all order3 rock glow ones_tab hmat hdot hdec renv.
Proof.
  apply steady_exact; [exact rock_good| |].
  - repeat (apply Forall_cons; [cbn; lia|]). apply Forall_nil.
  - intros b p. repeat split.
Qed.

(** three flavours, two nodes, both kinds, interactions and resonance, evolved from 1 to 5 *)
Example c95_case : exists s0 h s g, lived_all order3 rock glow ones_tab renv hmat hdot hdec s0 h s /\ passed ones_tab h 1 StateModel.BFlavor fluxes [g] /\
  sound rock g /\ fair rock (object_of s) g /\ sg_leg g = Leg (Body 1 true) 0 4 /\ sg_gr g = true /\ sg_tab g = ones /\ sg_tau g = false /\
  q_numneu s = 3%nat /\ q_ne s = 2%nat /\ q_nrhos s = 2%nat /\ q_nt s = IntModel.Both /\ o_int (q_opts s) = true /\ q_E s = [1; 2].
Proof.
  destruct (ready_exists_lib renv [1; 2] 3 true None (Body 1 true) (Track 1 5) fluxes) as (s0 & h & s & Mk & H & Rd & C & D & N0);
    [lia|cbn; lia|discriminate|].
  pose proof Rd as (Rr & FS). unfold rest in Rr. injection Rr as R1 R2 R3 R4 R5 R6 R7 R8 R9 R10 R11 R12 R13 R14 R15 R16.
  set (s2 := put_o_gr true s).
  assert (E2 : exec renv (CGlashow true) s = (Done, s2, [])).
  { cbn [exec]. unfold set_gr, read. cbn. rewrite R7. reflexivity. }
  assert (F : tables_fit s2).
  { constructor; cbn; rewrite R8; cbn; discriminate. }
  assert (SV : forall s1 hh dt, but_ints s1 = but_ints (put_sq_h hh s2) -> exists l, e_solve renv s1 dt = ([sq_t (q_sq s1) + dt], true, 0, l)).
  { intros s1 hh dt BI. cbn [renv steady_env e_solve]. unfold solver.
    assert (Q1 : q_body s1 = Some (Body 1 true)) by (change (q_body s1) with (q_body (but_ints s1)); rewrite BI; exact R9).
    assert (Q2 : q_offset s1 = Some 0) by (change (q_offset s1) with (q_offset (but_ints s1)); rewrite BI; exact R12).
    assert (Q3 : q_numneu s1 = 3%nat) by (change (q_numneu s1) with (q_numneu (but_ints s1)); rewrite BI; exact R2).
    assert (Q4 : o_tau (q_opts s1) = false) by (change (o_tau (q_opts s1)) with (o_tau (q_opts (but_ints s1))); rewrite BI; cbn; rewrite R7; reflexivity).
    assert (Q5 : kinds_ok s1 = true).
    { unfold kinds_ok. change (q_nt s1) with (q_nt (but_ints s1)). change (q_nrhos s1) with (q_nrhos (but_ints s1)). rewrite BI. cbn. rewrite R1, R4. reflexivity. }
    rewrite Q1, Q2, Q5. destruct (le_dec 3 (q_numneu s1)) as [P|P]; [|lia]. destruct (bool_dec (o_tau (q_opts s1)) false) as [Q|Q]; [|congruence].
    eexists. reflexivity. }
  destruct (evolve_ready renv s2 (Body 1 true) (Track 1 5) F) as (s' & ev & tb & E & I & TB & OO); try reflexivity; try discriminate.
  - intros x X. injection X as <-. reflexivity.
  - exact R9.
  - exact R10.
  - change (q_offset s2) with (q_offset s). rewrite R12. discriminate.
  - unfold has_all. change (q_flags s2) with (q_flags s). rewrite R14, R15, R16, FS. reflexivity.
  - cbn. rewrite R7. reflexivity.
  - cbn. rewrite R7. reflexivity.
  - cbn. rewrite R7. reflexivity.
  - intros s1 hh dt BI. destruct (SV s1 hh dt BI) as (l & ->). reflexivity.
  - intros s1 hh dt BI. destruct (SV s1 hh dt BI) as (l & ->). discriminate.
  - cbn. rewrite R6. reflexivity.
  - set (h2 := (CGlashow true, Done, [], s2) :: h).
    assert (H2 : history renv s0 h2 s2) by (apply h_call with s; [exact H|exact E2|discriminate]).
    assert (H' : history renv s0 ((CEvolve, Done, ev, s') :: h2) s') by (apply h_call with s2; [exact H2|exact E|discriminate]).
    pose proof (core_exec renv CEvolve eq_refl eq_refl s2) as K. rewrite E in K. unfold core_keeps, keeps, core in K. cbn in K. injection K as K1 K2 K3 K4 K5 K6 K7 K8 K9 K10 K11.
    assert (SH : exists ev1 ev2 ev3 x1 x2 x3, h = [(CInit3 2 2 3 fluxes StateModel.BFlavor, Done, ev1, x1); (CTrack (Some (Track 1 5)), Done, ev2, x2); (CBody (Some (Body 1 true)), Done, ev3, x3)] /\ x1 = s).
    { clear - C D H. destruct h as [|[[[c1 r1] e1] x1] [|[[[c2 r2] e2] x2] [|[[[c3 r3] e3] x3] [|]]]]; try discriminate C. cbn in C. injection C as -> -> ->.
      inversion D as [|? ? D1 D']; subst. inversion D' as [|? ? D2 D'']; subst. inversion D'' as [|? ? D3 _]; subst. cbn in D1, D2, D3. subst.
      exists e1, e2, e3, x1, x2, x3. split; [reflexivity|]. inversion H; reflexivity. }
    exists s0, ((CEvolve, Done, ev, s') :: h2), s', (stage_of ones_tab s' (Leg (Body 1 true) 0 4)).
    assert (T1 : sq_t (q_sq s) = 1) by (rewrite R6; reflexivity).
    assert (X1 : q_numneu s' = 3%nat /\ q_ne s' = 2%nat /\ q_nrhos s' = 2%nat /\ q_nt s' = IntModel.Both /\ q_E s' = [1; 2]) by (repeat split; congruence).
    destruct X1 as (X1 & X2 & X3 & X4 & X5).
    assert (SO : sound rock (stage_of ones_tab s' (Leg (Body 1 true) 0 4))).
    { split; [intro p; cbn; lra|]. cbn [stage_of sg_tab]. rewrite TB. constructor; intros; cbn; lra. }
    split; [|split; [|split; [exact SO|split; [|repeat split]]]].
    + split; [exists true; exact Mk|]. split; [exact H'|]. split.
      { destruct SH as (ev1 & ev2 & ev3 & x1 & x2 & x3 & EH & _). unfold h2. rewrite EH. intros en J. repeat destruct J as [<-|J]; try contradiction; exact Logic.I. }
      split; [reflexivity|]. split; [exact rock_good|]. split; [exact hmat_repr|]. split; [exact renv_exact|]. rewrite X1. repeat (apply Forall_cons; [cbn; lia|]). apply Forall_nil.
    + destruct SH as (ev1 & ev2 & ev3 & x1 & x2 & x3 & EH & EX). subst x1. unfold h2. rewrite EH.
      replace [stage_of ones_tab s' (Leg (Body 1 true) 0 4)] with ([] ++ [stage_of ones_tab s' (Leg (Body 1 true) (sq_t (q_sq s) - tr_ini (Track 1 5)) (tr_fin (Track 1 5) - tr_ini (Track 1 5)))]) by (rewrite T1; cbn [app]; repeat f_equal; cbn; ring).
      apply ps_evolve.
      * apply ps_other; [|left; reflexivity]. refine (ps_init _ _ _ _ _ (Track 1 5) _ _ _ _ _); reflexivity.
      * reflexivity.
      * reflexivity.
      * cbn. lra.
    + split; [apply SO|]. split; [apply SO|]. cbn [stage_of sg_tau]. rewrite OO. cbn. rewrite R7. discriminate.
    + cbn [stage_of sg_gr]. rewrite OO. reflexivity.
    + cbn [stage_of sg_tab]. rewrite TB. reflexivity.
    + cbn [stage_of sg_tau]. rewrite OO. cbn. rewrite R7. reflexivity.
    + exact X1.
    + exact X2.
    + exact X3.
    + exact X4.
    + rewrite OO. cbn. rewrite R7. reflexivity.
    + exact X5.
Qed.

Print Assumptions c95_settled.
Print Assumptions c95_stop.
Print Assumptions c95_superposition.
Print Assumptions c95_case.
