(** C83: neutrinos emitted by the medium (SourceModel.v). *)
From Coq Require Import List Arith Bool Reals Lra Lia String.
From Verif Require Import Err H5Model BodyModel BodyProps IntegralProofs CMatrix FlavorModel FlavorProofs FlavorProps FlavorEqn FlavorEqnProps SourceModel.
Import ListNotations.
Local Open Scope R_scope.

(** ** Specification *)
(** a history without reading from a file after the last time the sources were switched, which was on *)
Definition settles (p : sop) : bool := match p with OReread _ _ _ _ _ => false | _ => true end.
Definition no_switch (p : sop) : bool := match p with OReread _ _ _ _ _ => false | OSources _ => false | _ => true end.
Definition inside (o : sobj) (i j k : nat) : Prop := (i < s_ne o)%nat /\ (j < s_nrho o)%nat /\ (k < s_nneu o)%nat.

(** ** Helpers *)
Lemma srun_app l1 l2 : forall o, srun (l1 ++ l2) o = obind (srun l1 o) (srun l2).
Proof. induction l1 as [|p l1 IH]; intros o; cbn [app srun obind]; [reflexivity|]. destruct (sstep p o); cbn [obind]; auto. Qed.
Lemma same3_refl a b c : same3 (a, b, c) (a, b, c) = true.
Proof. cbn. now rewrite !Nat.eqb_refl. Qed.
Lemma same3_eq a b : same3 a b = true -> a = b.
Proof.
  destruct a as [[a1 a2] a3], b as [[b1 b2] b3]. cbn. intros H. apply andb_true_iff in H. destruct H as [H H3]. apply andb_true_iff in H. destruct H as [H1 H2].
  apply Nat.eqb_eq in H1, H2, H3. congruence.
Qed.
Lemma box_true n1 n2 n3 i j k : (i < n1)%nat -> (j < n2)%nat -> (k < n3)%nat -> box n1 n2 n3 i j k = true.
Proof. intros. unfold box. now rewrite !(proj2 (Nat.ltb_lt _ _)) by assumption. Qed.
(** [sized]: the array fits when the sources are on; [s_other] is on with interactions and with sources *)
Definition sound (o : sobj) : Prop := (s_inter o = true -> s_other o = true) /\ (s_on o = true -> s_other o = true).
Definition sized (o : sobj) : Prop := s_on o = true -> s_ext o = (s_ne o, s_nrho o, s_nneu o).
Lemma sound_step p o o' : sound o -> sstep p o = Ok o' -> sound o'.
Proof.
  intros [H1 H2]. destruct p as [b|e|x|a b c d e]; cbn [sstep].
  - intros H. injection H as <-. split; cbn; intros K; [now rewrite H1|]. subst b. destruct (s_inter o); cbn; [now rewrite H1|apply orb_true_r].
  - intros H. injection H as <-. now split.
  - unfold pre_derive. destruct (s_on o) eqn:E; [|intros H; injection H as <-; split; assumption || (rewrite E; auto)].
    destruct (same3 _ _); [|discriminate]. intros H. injection H as <-. destruct (s_body o); split; cbn; auto.
  - intros H. injection H as <-. split; cbn; intros K; [rewrite K; apply orb_true_r|now rewrite H2].
Qed.
Lemma sound_run l : forall o o', sound o -> srun l o = Ok o' -> sound o'.
Proof.
  induction l as [|p l IH]; intros o o' H; cbn [srun]; [intros K; now injection K as <-|]. destruct (sstep p o) as [o1| |] eqn:E; cbn [obind]; try discriminate.
  apply IH. eapply sound_step; eassumption.
Qed.
Lemma sized_step p o o' : settles p = true -> sized o -> sstep p o = Ok o' -> sized o' /\ (s_ne o', s_nrho o', s_nneu o', s_inter o') = (s_ne o, s_nrho o, s_nneu o, s_inter o).
Proof.
  intros S H. destruct p as [b|e|x|a b c d e]; cbn [sstep]; try discriminate.
  - intros K. injection K as <-. split; [|reflexivity]. intros Kb. cbn in *. now rewrite Kb.
  - intros K. injection K as <-. now split.
  - unfold pre_derive. destruct (s_on o) eqn:E; [|intros K; injection K as <-; now split].
    destruct (same3 _ _); [|discriminate]. intros K. injection K as <-. destruct (s_body o); split; try reflexivity; intros K; cbn in *; auto.
Qed.
Lemma sized_runs l : forall o, forallb settles l = true -> sized o -> exists o', srun l o = Ok o' /\ sized o' /\ (s_ne o', s_nrho o', s_nneu o', s_inter o') = (s_ne o, s_nrho o, s_nneu o, s_inter o).
Proof.
  induction l as [|p l IH]; intros o S H; cbn [srun]; [exists o; auto|]. cbn [forallb] in S. apply andb_true_iff in S. destruct S as [S1 S2].
  assert (exists o1, sstep p o = Ok o1) as [o1 E].
  { destruct p; cbn [sstep]; eauto; try discriminate. unfold pre_derive. destruct (s_on o) eqn:On; [|eauto]. rewrite (H On), same3_refl. eauto. }
  rewrite E. cbn [obind]. destruct (sized_step _ _ _ S1 H E) as [H1 Q]. destruct (IH o1 S2 H1) as (o' & R1 & R2 & R3). exists o'. split; [exact R1|]. split; [exact R2|]. congruence.
Qed.

(** ** Positive claims *)
(** Without reading a file no history goes wrong, and each derivative with an emitting medium uses what that medium emits at that position, whatever came before, for every node, kind and flavour (sterile ones too). *)
Theorem c83_current : forall ne nrho nneu inter l, forallb settles l = true -> exists o, srun l (fresh ne nrho nneu inter) = Ok o /\
  forall x, exists o', pre_derive x o = Ok o' /\ forall i j k, (i < ne)%nat -> (j < nrho)%nat -> (k < nneu)%nat ->
    (s_on o = false -> injected o' i j k = 0) /\ (forall g, s_on o = true -> s_body o = Emitting g -> injected o' i j k = g x i j k).
Proof.
  intros ne nrho nneu inter l S. assert (Z0 : sized (fresh ne nrho nneu inter)) by (intros K; discriminate).
  destruct (sized_runs l _ S Z0) as (o & E & Hs & Q). exists o. split; [exact E|]. cbn in Q. injection Q as Q1 Q2 Q3 Q4. intros x.
  assert (Hd : sound o) by (eapply sound_run; [|exact E]; split; cbn; auto; discriminate).
  unfold pre_derive. destruct (s_on o) eqn:On.
  - rewrite (Hs On), same3_refl. eexists. split; [reflexivity|]. intros i j k Hi Hj Hk. split; [discriminate|]. intros g _ Hg. rewrite Hg. unfold injected. cbn.
    rewrite (proj2 Hd On), Q1, Q2, Q3, box_true by assumption. reflexivity.
  - exists o. split; [reflexivity|]. intros i j k _ _ _. split; [|discriminate]. intros _. unfold injected. rewrite On. now destruct (s_other o).
Qed.
(** which medium and whether on: decided by the last calls only *)
Theorem c83_last_call : forall l b e l' o o', srun l o = Ok o' -> (forallb (fun p => match p with ODerive _ => true | _ => false end) l' = true) ->
  forall o2, srun (l ++ [OBody e; OSources b] ++ l') o = Ok o2 -> s_on o2 = b /\ s_body o2 = e.
Proof.
  intros l b e l' o o' E S o2. rewrite srun_app, E. cbn [obind app srun sstep]. set (o1 := set_sources b (set_body e o')). assert (H : s_on o1 = b /\ s_body o1 = e) by now split.
  clearbody o1. clear E o'. revert o1 H. induction l' as [|p l' IH]; intros o1 H; cbn [srun]; [intros K; injection K as <-; exact H|].
  cbn [forallb] in S. destruct p; try discriminate. cbn [sstep]. unfold pre_derive. destruct (s_on o1) eqn:On; cbn [obind].
  - destruct (same3 _ _); cbn [obind]; [|discriminate]. apply IH; [exact S|]. destruct H as [Ha Hb]. destruct (s_body o1) eqn:B; cbn; rewrite ?B; (split; [congruence|assumption]).
  - apply IH; [exact S|]. rewrite On. exact H.
Qed.
(** Switching on forgets what earlier media emitted; a medium that does not emit then adds nothing. *)
Theorem c83_reset : forall o x o', pre_derive x (set_sources true (set_body Silent o)) = Ok o' -> forall i j k, injected o' i j k = 0.
Proof.
  intros o x o'. unfold pre_derive. cbn. rewrite !Nat.eqb_refl. cbn. intros H. injection H as <-. intros i j k. unfold injected. cbn. now destruct (_ || _).
Qed.

(** ** What an EmittingVacuum gives *)
Lemma exp_antideriv l : 0 < l -> forall x, derivable_pt_lim (fun x => - (l * exp (- x / l))) x (exp (- x / l)).
Proof.
  intros Hl x. replace (exp (- x / l)) with (- (l * (exp (- x / l) * (- 1 / l)))) at 1 by (field; lra).
  apply derivable_pt_lim_opp. apply derivable_pt_lim_scal. apply (derivable_pt_lim_comp (fun x => - x / l) exp).
  - unfold Rdiv. replace (-1 * / l) with (-1 * / l + - x * 0) by ring.
    apply (derivable_pt_lim_mult (fun x => - x) (fun _ => / l)); [|apply derivable_pt_lim_const]. replace (-1) with (- (1)) by ring. apply derivable_pt_lim_opp. apply derivable_pt_lim_id.
  - apply derivable_pt_lim_exp.
Qed.
(** a quantity that changes at the emission's rate *)
Lemma accumulated l L f : 0 < l -> 0 <= L -> (forall x, 0 <= x <= L -> derivable_pt_lim f x (exp (- x / l))) -> f L = f 0 + l * (1 - exp (- L / l)).
Proof.
  intros Hl HL D. destruct (Req_dec L 0) as [->|N]; [replace (-0 / l) with 0 by (field; lra); rewrite exp_0; ring|].
  set (g := fun x => f x - - (l * exp (- x / l))).
  destruct (MVT_cor2 g (fun _ => 0) 0 L ltac:(lra)) as (c & Hc & _).
  - intros x Hx. unfold g. replace 0 with (exp (- x / l) - exp (- x / l)) by ring. apply derivable_pt_lim_minus; [apply D; lra|now apply exp_antideriv].
  - unfold g in Hc. replace (- 0 / l) with 0 in Hc by (field; lra). rewrite exp_0 in Hc. lra.
Qed.
Theorem c83_emission : forall flavor l, 0 < l -> exists g, emitting_vacuum flavor l = Emitting g /\
  (forall x i j k i' j', g x i j k = g x i' j' k /\ (k <> flavor -> g x i j k = 0) /\ (k = flavor -> 0 < g x i j k)) /\
  (forall i j L, 0 <= L -> integral (fun x => g x i j flavor) 0 L (l * (1 - exp (- L / l)))).
Proof.
  intros flavor l Hl. eexists. split; [reflexivity|]. split.
  - intros x i j k i' j'. split; [reflexivity|]. split; intros H; [now rewrite (proj2 (Nat.eqb_neq _ _) H)|]. subst k. rewrite Nat.eqb_refl. apply exp_pos.
  - intros i j L HL. rewrite Nat.eqb_refl. replace (l * (1 - exp (- L / l))) with (- (l * exp (- L / l)) - - (l * exp (- 0 / l))) by (replace (- 0 / l) with 0 by (field; lra); rewrite exp_0; ring).
    apply (integral_antiderivative (fun x => - (l * exp (- x / l)))); [exact HL|now apply exp_antideriv|].
    intros x. apply derivable_continuous_pt. reg. 
Qed.
(** Without interactions the sum over flavours grows by just what was emitted on the way, oscillations or not, in any medium (potentials [Q] of any kind); without oscillations only the emitted flavour grows. *)
Theorem c83_conserved : forall n th dl order nt r (H : mat) (Q : R -> mat) t0 flavor l L invlen gain (rho : R -> mat) i j g,
  (3 <= n)%nat -> pairs_ok n order -> 0 < l -> 0 <= L -> emitting_vacuum flavor l = Emitting g ->
  let P := b1_proj n th dl order nt r in
  (forall x, 0 <= x <= L -> let Pt := evolved H (t0 + x) t0 P in
     mderiv n rho (t0 + x) (rhs n (Q (t0 + x)) (gamma_rho false invlen Pt) (interactions_rho n false true gain (g x i j) Pt) (rho (t0 + x)))) ->
  rsum n (eval_flavor n BInter H (t0 + L) t0 P (rho (t0 + L))) =
  rsum n (eval_flavor n BInter H t0 t0 P (rho t0)) + (if Nat.ltb flavor n then l * (1 - exp (- L / l)) else 0).
Proof.
  intros n th dl order nt r H Q t0 flavor l L invlen gain rho i j g Hn Ho Hl HL Hg P D. injection Hg as <-.
  set (f := fun x => rsum n (eval_flavor n BInter H (t0 + x) t0 P (rho (t0 + x)))).
  assert (F : forall x, 0 <= x <= L -> derivable_pt_lim f x (if Nat.ltb flavor n then exp (- x / l) else 0)).
  { intros x Hx. pose proof (c68_total_rate n th dl order nt r H Q (t0 + x) t0 false true invlen gain _ rho Hn Ho (D x Hx)) as C. cbn [andb] in C.
    match type of C with derivable_pt_lim _ _ ?v => replace (if Nat.ltb flavor n then exp (- x / l) else 0) with v end.
    - intros eps He. destruct (C eps He) as (d & Hd). exists d. intros h H0 H1. unfold f. rewrite <- Rplus_assoc. apply Hd; assumption.
    - clear. generalize (exp (- x / l)). intros v. induction n as [|n IH]; [reflexivity|]. cbn [rsum]. rewrite IH. destruct (Nat.eqb_spec n flavor) as [->|N].
      + rewrite (proj2 (Nat.ltb_ge flavor flavor)) by lia. rewrite (proj2 (Nat.ltb_lt flavor (S flavor))) by lia. ring.
      + destruct (Nat.ltb_spec flavor n).
        * rewrite (proj2 (Nat.ltb_lt flavor (S n))) by lia. ring.
        * rewrite (proj2 (Nat.ltb_ge flavor (S n))) by lia. ring. }
  change (f L = rsum n (eval_flavor n BInter H t0 t0 P (rho t0)) + (if Nat.ltb flavor n then l * (1 - exp (- L / l)) else 0)).
  assert (F0 : f 0 = rsum n (eval_flavor n BInter H t0 t0 P (rho t0))) by (unfold f; now rewrite Rplus_0_r). rewrite <- F0.
  destruct (Nat.ltb flavor n); [now apply accumulated|]. rewrite Rplus_0_r. destruct (Req_dec L 0) as [->|N]; [reflexivity|].
  destruct (MVT_cor2 f (fun _ => 0) 0 L ltac:(lra) F) as (c & Hc & _). lra.
Qed.
Theorem c83_flavour : forall n th dl order nt r ediff E cc nc t0 flavor l L invlen gain (rho : R -> mat) i j g k,
  (3 <= n)%nat -> pairs_ok n order -> 0 < l -> 0 <= L -> emitting_vacuum flavor l = Emitting g -> (k < n)%nat ->
  let P := b1_proj n th dl order nt r in let H := h0 n false ediff E in
  (forall x, 0 <= x <= L -> let Pt := evolved H (t0 + x) t0 P in
     mderiv n rho (t0 + x) (rhs n (hi BInter H cc nc Pt) (gamma_rho false invlen Pt) (interactions_rho n false true gain (g x i j) Pt) (rho (t0 + x)))) ->
  eval_flavor n BInter H (t0 + L) t0 P (rho (t0 + L)) k = eval_flavor n BInter H t0 t0 P (rho t0) k + (if Nat.eqb k flavor then l * (1 - exp (- L / l)) else 0).
Proof.
  intros n th dl order nt r ediff E cc nc t0 flavor l L invlen gain rho i j g k Hn Ho Hl HL Hg Hk P H D. injection Hg as <-.
  set (f := fun x => eval_flavor n BInter H (t0 + x) t0 P (rho (t0 + x)) k).
  assert (F : forall x, 0 <= x <= L -> derivable_pt_lim f x (if Nat.eqb k flavor then exp (- x / l) else 0)).
  { intros x Hx. pose proof (c68_no_oscillations n th dl order nt r ediff E cc nc (t0 + x) t0 false true invlen gain _ rho k Hn Ho Hk (D x Hx)) as C. cbn [andb] in C.
    intros eps He. destruct (C eps He) as (d & Hd). exists d. intros h H0 H1. unfold f. rewrite <- Rplus_assoc. rewrite <- (Rplus_0_l (if Nat.eqb k flavor then _ else _)). apply Hd; assumption. }
  change (f L = eval_flavor n BInter H t0 t0 P (rho t0) k + (if Nat.eqb k flavor then l * (1 - exp (- L / l)) else 0)).
  assert (F0 : f 0 = eval_flavor n BInter H t0 t0 P (rho t0) k) by (unfold f; now rewrite Rplus_0_r). rewrite <- F0.
  destruct (Nat.eqb k flavor); [now apply accumulated|]. rewrite Rplus_0_r. destruct (Req_dec L 0) as [->|N]; [reflexivity|].
  destruct (MVT_cor2 f (fun _ => 0) 0 L ltac:(lra) F) as (c & Hc & _). lra.
Qed.

(** ** Findings *)
(** A medium that does not emit, set after one that did, goes on emitting what the last one did at its last position. *)
Theorem c83_stale_refuted : forall o g x, s_on o = true -> s_ext o = (s_ne o, s_nrho o, s_nneu o) -> sound o -> s_body o = Emitting g ->
  forall xs, exists o', srun (ODerive x :: OBody Silent :: map ODerive xs) o = Ok o' /\ s_body o' = Silent /\ forall i j k, inside o i j k -> injected o' i j k = g x i j k.
Proof.
  intros o g x On Ex Sd Hg xs. cbn [srun sstep]. unfold pre_derive. rewrite On, Ex, same3_refl, Hg. cbn [obind].
  set (o1 := set_body Silent _). assert (R1 : srun (map ODerive xs) o1 = Ok o1).
  { induction xs as [|y xs IH]; cbn [map srun sstep]; [reflexivity|]. unfold pre_derive. unfold o1 at 1 2 3 4 5. cbn [set_body s_on s_ext s_ne s_nrho s_nneu s_body]. rewrite ?On, ?Ex, same3_refl. cbn [obind]. exact IH. }
  exists o1. split; [exact R1|]. split; [reflexivity|]. intros i j k (Hi & Hj & Hk). unfold injected, o1. cbn. rewrite (proj2 Sd On), ?On, box_true by assumption. reflexivity.
Qed.
(** Reading a file with other sizes into an object with sources leaves an array that does not fit: the next derivative is undefined. Switching on again repairs it. *)
Theorem c83_reread_refuted : forall o ne nrho nneu inter e x, s_on o = true -> s_ext o = (s_ne o, s_nrho o, s_nneu o) -> (ne, nrho, nneu) <> (s_ne o, s_nrho o, s_nneu o) ->
  srun [OReread ne nrho nneu inter e; ODerive x] o = UB /\ exists o', srun [OReread ne nrho nneu inter e; OSources true; ODerive x] o = Ok o'.
Proof.
  intros o ne nrho nneu inter e x On Ex N. cbn [srun sstep obind]. split.
  - unfold pre_derive. cbn [reread s_on s_ext s_ne s_nrho s_nneu]. rewrite On, Ex. destruct (same3 _ _) eqn:E; [|reflexivity]. apply same3_eq in E. congruence.
  - unfold pre_derive. cbn [set_sources reread s_on s_ext s_ne s_nrho s_nneu]. rewrite same3_refl. cbn [obind]. eauto.
Qed.
(** With the shortcut for media of constant density (an EmittingVacuum says it is one) what the medium emits does not reach the state. *)
Theorem c83_shortcut_refuted : forall state turn solve o (rho : state) e, s_inter o = false ->
  evolve_sources state turn solve true true (set_sources true (set_body e o)) rho = turn rho.
Proof. intros state turn solve o rho e H. unfold evolve_sources. cbn. now rewrite H. Qed.
(** A flavour that does not exist is accepted and never emitted. *)
Theorem c83_no_flavour_refuted : forall ne nrho nneu inter flavor l x, (nneu <= flavor)%nat -> exists o, srun [OBody (emitting_vacuum flavor l); OSources true; ODerive x] (fresh ne nrho nneu inter) = Ok o /\
  forall i j k, injected o i j k = 0.
Proof.
  intros ne nrho nneu inter flavor l x H. cbn. rewrite !Nat.eqb_refl. cbn. eexists. split; [reflexivity|]. intros i j k. unfold injected. cbn.
  unfold box. destruct (Nat.ltb_spec k nneu); [|rewrite andb_false_r; now destruct (_ || _)]. rewrite (proj2 (Nat.eqb_neq k flavor)) by lia. repeat match goal with |- context [if ?b then _ else _] => destruct b end; reflexivity.
Qed.

(** ** Cases that meet the hypotheses *)
Definition ex_source : sobj := set_body (emitting_vacuum 1 100) (set_sources true (fresh 2 1 4 false)).
Example c83_example : forallb settles [OSources true; OBody (emitting_vacuum 1 100); ODerive 0; OBody Silent; OSources false; OSources true] = true /\
  s_on ex_source = true /\ s_ext ex_source = (s_ne ex_source, s_nrho ex_source, s_nneu ex_source) /\ sound ex_source /\ s_body ex_source = emitting_vacuum 1 100 /\ inside ex_source 1 0 1 /\
  (exists o, pre_derive 0 ex_source = Ok o /\ injected o 1 0 1 = 1 /\ injected o 1 0 3 = 0) /\ ((3%nat, 1%nat, 4%nat) <> (s_ne ex_source, s_nrho ex_source, s_nneu ex_source)).
Proof.
  split; [reflexivity|]. split; [reflexivity|]. split; [reflexivity|]. split; [split; intros _; reflexivity|]. split; [reflexivity|]. split; [unfold inside; cbn; lia|].
  split; [|discriminate]. cbn. eexists. split; [reflexivity|]. unfold injected. cbn. split; [|reflexivity]. replace (- 0 / 100) with 0 by field. apply exp_0.
Qed.
(** a solution with no oscillations, no mixing and no potential: the muon flavour grows *)
Example c83_example_solution : let P := b1_proj 3 (fun _ _ => 0) (fun _ _ => 0) [] Neutrino 0 in let H := h0 3 false (fun _ => 0) 1 in
  let rho := fun s => mscale (100 * (1 - exp (- s / 100))) (b0_proj 1) in
  forall x, let Pt := evolved H (0 + x) 0 P in
  mderiv 3 rho (0 + x) (rhs 3 (hi BInter H 0 0 Pt) (gamma_rho false (fun _ => 0) Pt) (interactions_rho 3 false true (fun _ => 0) (fun flv => if Nat.eqb flv 1 then exp (- x / 100) else 0) Pt) (rho (0 + x))).
Proof.
  cbv zeta. set (P := b1_proj 3 (fun _ _ => 0) (fun _ _ => 0) [] Neutrino 0). set (H := h0 3 false (fun _ => 0) 1). intros x.
  assert (Pk : forall k, (k < 3)%nat -> meq 3 (evolved H (0 + x) 0 P k) (b0_proj k)).
  { intros k Hk. assert (Q : meq 3 (evolved H (0 + x) 0 P k) (P k)).
    { intros a b _ _. unfold evolved, evolve, H, h0, mzero. cbn [re c0]. rewrite Rminus_diag_eq, Rmult_0_l, cexp_0 by reflexivity. ring. }
    eapply meq_trans; [exact Q|]. eapply meq_trans; [apply rotated; exact Hk|]. apply meq_sym, frame_b0. exact Hk. }
  set (v := exp (- x / 100)). set (D := mscale v (b0_proj 1)). apply (mderiv_meq 3 _ (0 + x) D).
  - intros a b Ha Hb.
    assert (X : forall k, (k < 3)%nat -> forall i j, (i < 3)%nat -> (j < 3)%nat -> evolved H (0 + x) 0 P k i j = cmult (delta i k) (delta j k)).
    { intros k Hk i j Hi Hj. rewrite (Pk k Hk i j Hi Hj). reflexivity. }
    unfold D, rhs, coherent, anti, hi, gamma_rho, interactions_rho. cbn [negb andb Nat.sub rest_sources Nat.eqb]. unfold mplus, mscale, mmult, mzero. cbn [csum].
    rewrite !X by lia. unfold b0_proj, ket_proj. generalize (100 * (1 - exp (- (0 + x) / 100))). intros w.
    destruct a as [|[|[|a]]]; try lia; destruct b as [|[|[|b]]]; try lia; cbn [delta Nat.eqb]; apply Ceq; cbn; ring.
  - intros a b Ha Hb. unfold D, mscale.
    assert (E : derivable_pt_lim (fun s => 100 * (1 - exp (- s / 100))) (0 + x) v).
    { unfold v. rewrite Rplus_0_l. pose proof (exp_antideriv 100 ltac:(lra) x) as A. intros eps He. destruct (A eps He) as (d & Hd). exists d. intros h H0 H1. specialize (Hd h H0 H1).
      match goal with |- Rabs ?z < _ => match type of Hd with Rabs ?y < _ => replace z with y; [exact Hd|] end end. f_equal. unfold Rdiv. ring. }
    assert (Y : im (b0_proj 1 a b) = 0).
    { unfold b0_proj, ket_proj, delta. destruct (Nat.eqb a 1), (Nat.eqb b 1); cbn; ring. }
    split; cbn [re im cmult rtc]; rewrite Y; set (q := re (b0_proj 1 a b)).
    + replace (v * q - 0 * 0) with (v * q + 100 * (1 - exp (- (0 + x) / 100)) * 0) by ring.
      intros eps He. destruct (derivable_pt_lim_mult _ (fun _ => q) (0 + x) _ _ E (derivable_pt_lim_const q (0 + x)) eps He) as (d & Hd). exists d. intros h H0 H1. specialize (Hd h H0 H1).
      match goal with |- Rabs ?z < _ => match type of Hd with Rabs ?y < _ => replace z with y; [exact Hd|] end end. unfold mult_fct. f_equal. f_equal. ring.
    + intros eps He. exists (mkposreal 1 Rlt_0_1). intros h _ _.
      match goal with |- Rabs ?z < _ => replace z with 0; [rewrite Rabs_R0; exact He|] end. unfold Rdiv. ring.
Qed.

Print Assumptions c83_current. Print Assumptions c83_last_call. Print Assumptions c83_reset. Print Assumptions c83_emission. Print Assumptions c83_conserved. Print Assumptions c83_flavour.
Print Assumptions c83_stale_refuted. Print Assumptions c83_reread_refuted. Print Assumptions c83_shortcut_refuted. Print Assumptions c83_no_flavour_refuted.
