(** C95: what is read from an object whose neutrinos interact or are emitted is what the equation of all
    nodes and kinds says. *)
From Coq Require Import Reals List Arith Bool Lia Lra Wf_nat.
From Verif Require Import TauModel XsModel IntModel IntProofs IntLayoutProofs IntProps StateModel StateProofs StateHistory StateLaws StateReady StateFrames.
From Verif Require Import CMatrix FlavorModel FlavorProofs FlavorProps FlavorEqn FlavorEqnProps AvgProofs SuperModel SuperProofs SuperProps PosProofs PosProps.
From Verif Require Import TransProofs TransProps EndModel EndProps FullModel FullSpec FullProofs.
Import ListNotations.
Local Open Scope R_scope.

(** ** Properties of the equation *)
(** nothing is negative; taus only with both kinds *)
Definition fair (m : media) (w : object) (g : stage) : Prop :=
  (forall p, 0 <= m_rho m (l_body (sg_leg g)) p) /\ nonneg_tables (sg_tab g) /\ (sg_tau g = true -> ob_nr w = 2%nat).
Definition rising (w : object) : Prop := forall i, (S i < ob_ne w)%nat -> ob_E w i <= ob_E w (S i).

Section Equation.
Variable order : list (nat * nat).
Variable m : media.
Variable emission : body -> R -> nat -> nat -> nat -> R.
Hypothesis GM : good_media m.

Lemma nucleons_nonneg one rho ye i : 0 <= rho -> 0 <= ye <= 1 -> 0 <= nucleons (m_k m) one rho ye i.
Proof.
  intros Rh Y. destruct GM as ((M1 & M2 & M3 & M4 & M5 & _) & _). unfold nucleons. destruct one.
  - destruct (Rlt_dec _ _) as [X|X].
    + apply Rmult_le_pos; [lra|]. apply Rlt_le, Rdiv_lt_0_compat; [lra|apply pow_lt; lra].
    + apply Rnot_lt_le in X. eapply Rle_trans; [|exact X]. apply Rlt_le, Rdiv_lt_0_compat; [lra|apply pow_lt; lra].
  - assert (D : 0 < (k_me (m_k m) + k_mp (m_k m)) * ye + k_mn (m_k m) * (1 - ye)).
    { assert (0 <= (k_me (m_k m) + k_mp (m_k m)) * ye) by (apply Rmult_le_pos; lra). assert (0 <= k_mn (m_k m) * (1 - ye)) by (apply Rmult_le_pos; lra).
      destruct (Rlt_le_dec ye (1 / 2)); [assert (0 < k_mn (m_k m) * (1 - ye)) by (apply Rmult_lt_0_compat; lra)|
        assert (0 < (k_me (m_k m) + k_mp (m_k m)) * ye) by (apply Rmult_lt_0_compat; lra)]; lra. }
    unfold Rdiv. apply Rmult_le_pos; [|apply Rlt_le, Rinv_0_lt_compat, D]. apply Rmult_le_pos; [destruct i; lra|]. apply Rmult_le_pos; lra.
Qed.
Section OneStage.
Variable w : object.
Variable g : stage.
Hypothesis FA : fair m w g.
Lemma matter_ok p : 0 <= rho_ m g p /\ 0 <= ye_ m g p <= 1.
Proof. split; [apply FA|apply GM]. Qed.
Lemma neutral_nonneg p r f e : 0 <= neutral_len m g p r f e.
Proof.
  apply IntProofs.rsum_nonneg. intros i _. apply Rmult_le_pos; [apply nucleons_nonneg; apply matter_ok|apply FA].
Qed.
Lemma charged_nonneg p r f e : 0 <= charged_len m g p r f e.
Proof.
  apply IntProofs.rsum_nonneg. intros i _. apply Rmult_le_pos; [apply nucleons_nonneg; apply matter_ok|apply FA].
Qed.
Lemma resonant_nonneg p e : 0 <= resonant_len m g p e.
Proof.
  unfold resonant_len, electrons. destruct (matter_ok p) as (A & B). apply Rmult_le_pos; [|apply FA]. apply Rmult_le_pos; [destruct (sg_one g); lra|].
  apply nucleons_nonneg; assumption.
Qed.
Lemma loss_nonneg p r f e : 0 <= loss m w g p r f e.
Proof.
  unfold loss. pose proof (neutral_nonneg p r f e). pose proof (charged_nonneg p r f e). pose proof (resonant_nonneg p e).
  destruct (_ && _)%bool; lra.
Qed.
Lemma share_nonneg p i : 0 <= share (sg_one g) (ye_ m g p) i.
Proof. destruct (matter_ok p) as (_ & B). unfold share. destruct (sg_one g); [lra|]. destruct i; lra. Qed.
Lemma width_nonneg i : rising w -> (S i < ob_ne w)%nat -> 0 <= width w i.
Proof. intros Ri Hi. unfold width. specialize (Ri i Hi). lra. Qed.

(** gains depend on the nodes above *)
Lemma gain_ext w' p fl fl' r f e : ob_ne w' = ob_ne w -> (forall i, (S i < ob_ne w)%nat -> width w' i = width w i) -> anti_kind w' r = anti_kind w r ->
  (r < ob_nr w)%nat -> (f < 3)%nat -> (forall r f e2, (r < ob_nr w)%nat -> (f < 3)%nat -> (e < e2 < ob_ne w)%nat -> fl' r f e2 = fl r f e2) ->
  gain m w' g p fl' r f e = gain m w g p fl r f e.
Proof.
  intros NE WI AK Hr Hf FL. unfold gain, resonant, scattered, from_above. rewrite AK, NE. f_equal; [f_equal|].
  - apply IntProofs.rsum_ext. intros e2 H2. apply IntProofs.rsum_ext. intros i _. rewrite FL by (assumption || lia). rewrite WI by lia. reflexivity.
  - destruct (sg_tau g) eqn:T; [|reflexivity]. assert (N2 : ob_nr w = 2%nat) by (apply FA, T).
    assert (TA : forall r' et, (r' < 2)%nat -> (e < et < ob_ne w)%nat -> taus m w' g p fl' r' et = taus m w g p fl r' et).
    { intros r' et R' Het. unfold taus, from_above. rewrite NE. apply IntProofs.rsum_ext. intros e2 H2.
      rewrite !FL by (lia). assert (EA : each g (fun i => fl r' 2%nat e2 * charged_len m g p r' 2 e2 * width w' (e2 - 1) * share (sg_one g) (ye_ m g p) i * t_dCC (sg_tab g) i r' 2 e2 et * width w' (et - 1))
        = each g (fun i => fl r' 2%nat e2 * charged_len m g p r' 2 e2 * width w (e2 - 1) * share (sg_one g) (ye_ m g p) i * t_dCC (sg_tab g) i r' 2 e2 et * width w (et - 1))).
      { apply IntProofs.rsum_ext. intros i _. rewrite !WI by lia. reflexivity. }
      rewrite EA. reflexivity. }
    unfold decayed, from_above. rewrite NE. destruct (Nat.eqb f 2); apply IntProofs.rsum_ext; intros et Het; rewrite TA by lia; reflexivity.
  - destruct (sg_gr g && anti_kind w r)%bool; [|reflexivity]. apply IntProofs.rsum_ext. intros e2 H2. rewrite FL by (assumption || lia). rewrite WI by lia. reflexivity.
Qed.
Lemma gain_nonneg p fl r f e : rising w -> (r < ob_nr w)%nat -> (f < 3)%nat ->
  (forall r f e2, (r < ob_nr w)%nat -> (f < 3)%nat -> (e < e2 < ob_ne w)%nat -> 0 <= fl r f e2) -> 0 <= gain m w g p fl r f e.
Proof.
  intros Ri Hr Hf FL. destruct FA as (_ & [D1 D2 D3 _ _ _ D7 D8] & N2). unfold gain. apply Rplus_le_le_0_compat; [apply Rplus_le_le_0_compat|].
  - apply IntProofs.rsum_nonneg. intros e2 H2. apply IntProofs.rsum_nonneg. intros i _. apply Rmult_le_pos; [|apply D1]. apply Rmult_le_pos; [|apply share_nonneg].
    apply Rmult_le_pos; [|apply width_nonneg; [exact Ri|lia]]. apply Rmult_le_pos; [apply FL; (assumption || lia)|apply neutral_nonneg].
  - destruct (sg_tau g) eqn:T; [|lra]. specialize (N2 eq_refl).
    assert (TA : forall r' et, (r' < 2)%nat -> (e < et < ob_ne w)%nat -> 0 <= taus m w g p fl r' et).
    { intros r' et R' Het. apply IntProofs.rsum_nonneg. intros e2 H2. cbv zeta.
      assert (0 <= each g (fun i => fl r' 2%nat e2 * charged_len m g p r' 2 e2 * width w (e2 - 1) * share (sg_one g) (ye_ m g p) i * t_dCC (sg_tab g) i r' 2 e2 et * width w (et - 1))).
      { apply IntProofs.rsum_nonneg. intros i _. apply Rmult_le_pos; [|apply width_nonneg; [exact Ri|lia]]. apply Rmult_le_pos; [|apply D2]. apply Rmult_le_pos; [|apply share_nonneg].
        apply Rmult_le_pos; [|apply width_nonneg; [exact Ri|lia]]. apply Rmult_le_pos; [apply FL; lia|apply charged_nonneg]. }
      destruct (Rle_dec _ 0); [destruct (Rle_dec _ 0)|]; lra. }
    unfold decayed. destruct (Nat.eqb f 2); apply IntProofs.rsum_nonneg; intros et Het; apply Rmult_le_pos; try apply TA; try apply D7; try apply D8; lia.
  - destruct (sg_gr g && anti_kind w r)%bool; [|lra]. apply IntProofs.rsum_nonneg. intros e2 H2. apply Rmult_le_pos; [|apply D3].
    apply Rmult_le_pos; [|apply width_nonneg; [exact Ri|lia]]. apply Rmult_le_pos; [apply FL; (assumption || lia)|apply resonant_nonneg].
Qed.

Hypothesis L3 : (3 <= ob_n w)%nat.
Hypothesis PO : pairs_ok (ob_n w) order.
Lemma flavour_projector e r f : (f < ob_n w)%nat -> projector (ob_n w) (flavour order (at_node w e r) f).
Proof.
  intro Hf. destruct (starting_frame order (at_node w e r) BFlavor PO) as (V & U & F). exact (proj1 (frame_projector _ V _ f U F Hf)).
Qed.
Lemma damping_psd p e r : psd (ob_n w) (damping order m w g p e r).
Proof.
  unfold damping. destruct (ob_int w); [|apply psd_zero]. apply psd_msum. intros f Hf. apply psd_scale; [pose proof (loss_nonneg p r f e); lra|].
  apply psd_projector, flavour_projector. lia.
Qed.
Lemma damping_herm p e r : hermitian (ob_n w) (damping order m w g p e r).
Proof.
  unfold damping. destruct (ob_int w); [|apply herm_zero]. 
  assert (K : forall (a : nat -> R) q, (q <= 3)%nat -> hermitian (ob_n w) (msum q (fun f => mscale (a f) (flavour order (at_node w e r) f)))).
  { intro a. induction q as [|q IH]; intro Hq; cbn [msum]; [apply herm_zero|]. apply herm_plus; [apply IH; lia|]. apply herm_scale. apply (flavour_projector e r q). lia. }
  apply (K (fun f => 1 / 2 * loss m w g p r f e)). lia.
Qed.
Lemma supply_psd p fl e r : rising w -> (r < ob_nr w)%nat -> (forall b p e r f, 0 <= emission b p e r f) ->
  (forall r f e2, (r < ob_nr w)%nat -> (f < 3)%nat -> (e < e2 < ob_ne w)%nat -> 0 <= fl r f e2) -> psd (ob_n w) (supply order m emission w g p fl e r).
Proof.
  intros Ri Hr EM FL. unfold supply. apply psd_plus.
  - destruct (ob_int w); [|apply psd_zero]. apply psd_msum. intros f Hf. apply psd_scale; [apply gain_nonneg; assumption|]. apply psd_projector, flavour_projector. lia.
  - destruct (sg_src g); [|apply psd_zero]. apply psd_msum. intros f Hf. apply psd_scale; [apply EM|]. apply psd_projector, flavour_projector. exact Hf.
Qed.
Lemma full_herm e r x : hermitian (ob_n w) (full (leg_world order m (at_node w e r) (sg_leg g)) x).
Proof. exact (full_hermitian (leg_world order m (at_node w e r) (sg_leg g)) x (conj L3 PO)). Qed.
Lemma supply_ext p fl fl' e r : (r < ob_nr w)%nat -> (forall r f e2, (r < ob_nr w)%nat -> (f < 3)%nat -> (e < e2 < ob_ne w)%nat -> fl' r f e2 = fl r f e2) ->
  supply order m emission w g p fl' e r = supply order m emission w g p fl e r.
Proof.
  intros Hr FL. unfold supply. f_equal. destruct (ob_int w); [|reflexivity]. apply msum_ext_eq. intros f Hf. f_equal. apply gain_ext; try assumption; reflexivity || (intros; reflexivity).
Qed.
End OneStage.

(** what happens from node [k] upwards is settled by what was there *)
Lemma voyage_upper w k t gs A A' B B' : (3 <= ob_n w)%nat -> pairs_ok (ob_n w) order -> Forall (fair m w) gs ->
  voyage order m emission w t gs A B -> voyage order m emission w t gs A' B' ->
  (forall e r, (k <= e < ob_ne w)%nat -> (r < ob_nr w)%nat -> meq (ob_n w) (A e r) (A' e r)) ->
  forall e r, (k <= e < ob_ne w)%nat -> (r < ob_nr w)%nat -> meq (ob_n w) (B e r) (B' e r).
Proof.
  intros L3 PO FA W. revert A' B' FA. induction W as [t A B M|t g gs A B sol L0 S0 D W IH]; intros A' B' FA W' St; inversion W'; subst.
  - intros e r He Hr. eapply meq_trans; [apply meq_sym, M; (assumption || lia)|]. eapply meq_trans; [apply St; assumption|].
    match goal with X : same w A' B' |- _ => apply X; (assumption || lia) end.
  - inversion FA as [|? ? FG FR]; subst.
    match goal with X : voyage _ _ _ _ _ gs (?s2 _) _, Y : forall x e r, _ -> _ -> _ -> mderiv _ (fun u => ?s2 u e r) x _, Z : same _ (?s2 t) A' |- _ => rename X into W2; rename Y into D2; rename Z into S2; rename s2 into sol2 end.
    eapply IH; [exact FR|exact W2|].
    assert (K : forall d e, (e + d = ob_ne w)%nat -> (k <= e < ob_ne w)%nat -> forall x r, t <= x <= t + l_len (sg_leg g) -> (r < ob_nr w)%nat -> meq (ob_n w) (sol x e r) (sol2 x e r)).
    { intro d. induction d as [d ID] using (well_founded_induction lt_wf). intros e E He x r Hx Hr.
      apply (same_solution (ob_n w) (fun u => sol u e r) (fun u => sol2 u e r) (full (leg_world order m (at_node w e r) (sg_leg g)))
        (fun u => damping order m w g (u - l_shift (sg_leg g)) e r)
        (fun u => supply order m emission w g (u - l_shift (sg_leg g)) (seen order w (sol u)) e r)
        (fun u => supply order m emission w g (u - l_shift (sg_leg g)) (seen order w (sol2 u)) e r) t (t + l_len (sg_leg g))); [lra| | |exact Hx].
      - intros u Hu. split; [apply full_herm; assumption|]. split; [apply damping_psd; assumption|]. split; [|split; [apply D; (assumption || lia)|apply D2; (assumption || lia)]].
        rewrite (supply_ext w g FG _ (seen order w (sol2 u)) (seen order w (sol u))); [apply meq_refl|exact Hr|].
        intros r2 f2 e2 R2 F2 E2. unfold seen. apply expect_meq; [apply meq_refl|]. apply (ID (ob_ne w - e2)%nat); try assumption; lia.
      - eapply meq_trans; [apply S0; (assumption || lia)|]. eapply meq_trans; [apply St; assumption|]. apply meq_sym, S2; (assumption || lia). }
    intros e r He Hr. apply (K (ob_ne w - e)%nat e); try assumption; try lia. lra.
Qed.

Lemma voyage_psd w t gs A B : (3 <= ob_n w)%nat -> pairs_ok (ob_n w) order -> Forall (fair m w) gs -> rising w -> (forall b p e r f, 0 <= emission b p e r f) ->
  voyage order m emission w t gs A B -> (forall e r, (e < ob_ne w)%nat -> (r < ob_nr w)%nat -> psd (ob_n w) (A e r)) ->
  forall e r, (e < ob_ne w)%nat -> (r < ob_nr w)%nat -> psd (ob_n w) (B e r).
Proof.
  intros L3 PO FA Ri EM W. revert FA. induction W as [t A B M|t g gs A B sol L0 S0 D W IH]; intros FA P.
  - intros e r He Hr. exact (psd_meq _ _ _ (M e r He Hr) (P e r He Hr)).
  - inversion FA as [|? ? FG FR]; subst. apply IH; [exact FR|].
    assert (K : forall d e, (e + d = ob_ne w)%nat -> (e < ob_ne w)%nat -> forall x r, t <= x <= t + l_len (sg_leg g) -> (r < ob_nr w)%nat -> psd (ob_n w) (sol x e r)).
    { intro d. induction d as [d ID] using (well_founded_induction lt_wf). intros e E He x r Hx Hr.
      apply (stays_psd (ob_n w) (fun u => sol u e r) (full (leg_world order m (at_node w e r) (sg_leg g)))
        (fun u => damping order m w g (u - l_shift (sg_leg g)) e r)
        (fun u => supply order m emission w g (u - l_shift (sg_leg g)) (seen order w (sol u)) e r) t (t + l_len (sg_leg g))); [lra| | |exact Hx].
      - intros u Hu. split; [apply full_herm; assumption|]. split; [apply damping_herm; assumption|]. split; [apply damping_psd; assumption|].
        split; [|apply D; assumption]. apply supply_psd; try assumption. intros r2 f2 e2 R2 F2 E2. unfold seen, expect. apply psd_content; [apply flavour_projector; (assumption || lia)|].
        apply (ID (ob_ne w - e2)%nat); try assumption; lia.
      - apply (psd_meq _ (A e r)); [apply meq_sym, S0; assumption|apply P; assumption]. }
    intros e r He Hr. apply (K (ob_ne w - e)%nat e); try assumption; try lia. lra.
Qed.

(** without interactions and sources each node and kind goes its own way *)
Lemma voyage_plain w t gs A B e r : ob_int w = false -> Forall (fun g => sg_src g = false) gs -> voyage order m emission w t gs A B -> (e < ob_ne w)%nat -> (r < ob_nr w)%nat ->
  way order m (at_node w e r) t (legs gs) (A e r) (B e r).
Proof.
  intros OI SR W He Hr. revert SR. induction W as [t A B M|t g gs A B sol L0 S0 D W IH]; intro SR; cbn [legs map].
  - apply way_nil. apply M; assumption.
  - inversion SR as [|? ? SG SR']; subst. apply way_leg with (sol := fun x => sol x e r); [exact L0|apply S0; assumption| |apply IH; assumption].
    intros x Hx. eapply FlavorEqn.mderiv_meq; [|apply D; assumption]. unfold change. cbn [at_node st_n]. eapply meq_trans; [|apply rhs_zero].
    unfold damping, supply. rewrite OI, SG. apply rhs_meq; try apply meq_refl. intros i j _ _. unfold mplus, mzero. ring.
Qed.

(** objects that differ in nothing that is used *)
Definition alike (w w' : object) : Prop := ob_n w' = ob_n w /\ ob_nr w' = ob_nr w /\ ob_ne w' = ob_ne w /\ ob_int w' = ob_int w /\
  forall e r, (e < ob_ne w)%nat -> (r < ob_nr w)%nat -> same_settings (at_node w e r) (at_node w' e r).
Lemma anti_is w r : anti_kind w r = is_anti (ob_nt w) r.
Proof. unfold anti_kind, is_anti. destruct (ob_nt w), (Nat.eqb r 1); reflexivity. Qed.
Lemma change_alike w w' g x A e r : alike w w' -> (3 <= ob_n w)%nat -> Forall (fun p => (fst p < snd p < ob_n w)%nat) order -> fair m w g -> (e < ob_ne w)%nat -> (r < ob_nr w)%nat ->
  change order m emission w' g x A e r = change order m emission w g x A e r.
Proof.
  intros (N & NR & NE & NI & SS) L3 OO FA He Hr. unfold change.
  pose proof (SS e r He Hr) as S1. pose proof S1 as (_ & AN & _). cbn in AN.
  assert (FL : forall e r f, (e < ob_ne w)%nat -> (r < ob_nr w)%nat -> flavour order (at_node w' e r) f = flavour order (at_node w e r) f).
  { intros. apply same_flavour; [apply SS; assumption|exact OO]. }
  assert (WI : forall i, (S i < ob_ne w)%nat -> width w' i = width w i).
  { intros i Hi. destruct (SS (S i) r ltac:(lia) Hr) as (_ & _ & E1 & _). destruct (SS i r ltac:(lia) Hr) as (_ & _ & E2 & _). cbn in E1, E2. unfold width. rewrite E1, E2. reflexivity. }
  assert (AK : anti_kind w' r = anti_kind w r) by (rewrite !anti_is; exact AN).
  rewrite (same_full order m (at_node w e r) (at_node w' e r) S1 OO L3). rewrite N. f_equal.
  - unfold damping. rewrite NI. destruct (ob_int w); [|reflexivity]. apply msum_ext_eq. intros f Hf. rewrite FL by assumption. unfold loss. rewrite AK. reflexivity.
  - unfold supply. rewrite NI, N. f_equal.
    + destruct (ob_int w); [|reflexivity]. apply msum_ext_eq. intros f Hf. rewrite FL by assumption. f_equal.
      apply (gain_ext w g FA w'); try assumption. intros r2 f2 e2 R2 F2 E2. unfold seen. rewrite N, FL by (assumption || lia). reflexivity.
    + destruct (sg_src g); [|reflexivity]. apply msum_ext_eq. intros f Hf. rewrite FL by assumption. reflexivity.
Qed.
Lemma voyage_alike w w' t gs A B : alike w w' -> (3 <= ob_n w)%nat -> Forall (fun p => (fst p < snd p < ob_n w)%nat) order -> Forall (fair m w) gs ->
  voyage order m emission w' t gs A B -> voyage order m emission w t gs A B.
Proof.
  intros AL L3 OO FA W. pose proof AL as (N & NR & NE & NI & SS). revert FA. induction W as [t A B M|t g gs A B sol L0 S0 D W IH]; intro FA.
  - apply vo_nil. intros e r He Hr. rewrite <- N. apply M; congruence.
  - inversion FA as [|? ? FG FR]; subst. apply vo_leg with (sol := sol); [exact L0| | |apply IH; exact FR].
    + intros e r He Hr. rewrite <- N. apply S0; congruence.
    + intros x e r Hx He Hr. rewrite <- (change_alike w w' g x (sol x) e r AL L3 OO FG He Hr), <- N. apply D; congruence.
Qed.
Lemma put_in_alike w w' b v v' e r : alike w w' -> Forall (fun p => (fst p < snd p < ob_n w)%nat) order -> (e < ob_ne w)%nat -> (r < ob_nr w)%nat ->
  (forall j, (j < ob_n w)%nat -> v' e r j = v e r j) -> put_in order w' b v' e r = put_in order w b v e r.
Proof. intros (N & NR & NE & NI & SS) OO He Hr V. unfold put_in. exact (same_ini order (at_node w e r) (at_node w' e r) (SS e r He Hr) OO b (v e r) (v' e r) V). Qed.
End Equation.

(** ** C95 *)
Section Reading.
Variable order : list (nat * nat).
Variable m : media.
Variable emission : body -> R -> nat -> nat -> nat -> R.
Variable tab : tabs -> list R -> nt -> itables.

(** all that is supposed of the object and its life *)
Definition lived_all (e : env) (mat_of : nat -> vec -> mat) (dot : nat -> vec -> vec -> R) (dec : nat -> nat -> list R -> nat -> nat -> mat)
    (s0 : nus) (h : list entry) (s : nus) : Prop :=
  (exists k, made e k s0) /\ history e s0 h s /\ oscillating h /\ e_ini_num e true = true /\ good_media m /\
  (forall n, su_repr n (mat_of n) (dot n)) /\ exact_all order m emission tab mat_of dot dec e /\ Forall (fun p => (fst p < snd p < q_numneu s)%nat) order.

Lemma lived_all_min e mat_of dot dec s0 h s : lived_all e mat_of dot dec s0 h s -> (3 <= q_numneu s)%nat.
Proof. intros ((k & Mk) & H & _). exact (wf_min _ _ (ag_wf _ _ _ _ (history_agrees e k s0 h s Mk H))). Qed.

(** Whatever was done to the object before: after a state is set and evolved along any legs, the
    flavour and mass contents of all nodes and kinds are those of the equation for the present
    settings, in the conditions of each leg. *)
Theorem c95_reading e mat_of dot dec s0 h s t0 b v gs : lived_all e mat_of dot dec s0 h s -> passed tab h t0 b v gs ->
  exists B, outcome_is order m emission (object_of s) t0 (basis_of b) v gs B /\
  forall ie r f, (ie < q_ne s)%nat -> (r < q_nrhos s)%nat -> (f < q_numneu s)%nat ->
    content order dec s ie r f = expect (q_numneu s) (flavour order (at_node (object_of s) ie r) f) (B ie r) /\
    mass_content dec s ie r f = expect (q_numneu s) (b0_proj f) (B ie r).
Proof.
  intros ((k & Mk) & H & N & IN & GM & SU & EX & OO) PS.
  destruct (passed_on e order m emission tab mat_of dot dec k s0 h s t0 b v gs Mk H IN N GM OO (SU _) EX PS) as [F O T0 T (B & WB & EB)].
  destruct (life_switches e k s0 h s Mk H IN N) as ((S2 & _) & _).
  exists B. split; [exact WB|]. intros ie r f Hi Hr Hf. specialize (EB ie r Hi Hr). unfold matrices in EB. cbn [object_of ob_n] in EB.
  assert (RH : read_H s ie = stored_H s ie) by (destruct F as (_ & _ & F); unfold read_H, stored_H; rewrite O, S2, F; reflexivity).
  split.
  - unfold content. rewrite RH.
    pose proof (read_back (q_numneu s) (basis_of (o_basis (q_opts s))) (stored_H s ie) (sq_t (q_sq s)) (sq_t0 (q_sq s)) (matrix dec s (sq_state (q_sq s)) ie r) (stored_P order s r f)) as X.
    pose proof (stored_flavour order s ie r f F Hr Hf OO) as SF.
    change (settings_of s ie r) with (at_node (object_of s) ie r) in SF. rewrite SF in X.
    rewrite <- (expect_meq (q_numneu s) _ _ _ _ (meq_refl _ (flavour order (at_node (object_of s) ie r) f)) EB), <- X.
    unfold eval_flavor. rewrite SF. destruct (basis_of (o_basis (q_opts s))); reflexivity.
  - unfold mass_content. rewrite RH.
    pose proof (read_back (q_numneu s) (basis_of (o_basis (q_opts s))) (stored_H s ie) (sq_t (q_sq s)) (sq_t0 (q_sq s)) (matrix dec s (sq_state (q_sq s)) ie r) (b0_proj f)) as X.
    rewrite <- (expect_meq (q_numneu s) _ _ _ _ (meq_refl _ (b0_proj f)) EB), <- X.
    unfold eval_mass. destruct (basis_of (o_basis (q_opts s))); reflexivity.
Qed.

(** taus were on only in objects with both kinds *)
Lemma passed_kinds e k s0 h s t0 b v gs : made e k s0 -> history e s0 h s -> e_ini_num e true = true -> oscillating h -> passed tab h t0 b v gs ->
  Forall (fun g => sg_tau g = true -> q_nrhos s = 2%nat) gs.
Proof.
  intros Mk H IN N PS. revert s H N. induction PS as [c ev s' h t b v I G T|ev s' h t0 b v gs bd t c1 PS IH B A L|c r ev s' h t0 b v gs PS IH G]; intros s0' H N;
    [apply Forall_nil| |]; inversion H as [|h' s c' r' s1 ev' H' E U]; subst;
    assert (N' : oscillating h) by (intros en X; apply N; right; exact X);
    pose proof (history_agrees e k s0 h s Mk H') as AG; pose proof (ag_wf _ _ _ _ AG) as W; specialize (IH s H' N').
  - assert (C : q_nrhos s0' = q_nrhos s).
    { pose proof (core_exec e CEvolve eq_refl eq_refl s) as K. rewrite E in K. unfold core_keeps, keeps, core in K. injection K as _ _ _ K4 _ _ _ _ _ _ _. exact K4. }
    apply Forall_app. split; [rewrite C; exact IH|]. apply Forall_cons; [|apply Forall_nil]. cbn [stage_of sg_tau].
    destruct (life_shapes e k s0 _ s0' Mk H IN N) as (S1 & _ & S3). intro X. apply S1, S3, X.
  - assert (C : q_nrhos s0' = q_nrhos s); [|rewrite C; exact IH].
    assert (OB : s0' = out_obj (exec e c s)) by (rewrite E; reflexivity).
    destruct (is_init c) eqn:J.
    + destruct (init_cases e c s W J) as [X|(t1 & s2 & _ & X & S2 & _)]; rewrite OB, X; [reflexivity|]. apply S2.
    + destruct (is_param c) eqn:P.
      * destruct (param_cases e c s W P) as [Y|(s2 & Y & Fr & _)]; rewrite OB, Y; [reflexivity|]. cbn. rewrite Fr. reflexivity.
      * pose proof (core_exec e c J P s) as K. rewrite <- OB in K. unfold core_keeps, keeps, core in K. injection K as _ _ _ K4 _ _ _ _ _ _ _. exact K4.
Qed.

(** density and cross sections are not negative *)
Definition sound (g : stage) : Prop := (forall p, 0 <= m_rho m (l_body (sg_leg g)) p) /\ nonneg_tables (sg_tab g).
Lemma passed_fair e mat_of dot dec s0 h s t0 b v gs : lived_all e mat_of dot dec s0 h s -> passed tab h t0 b v gs -> Forall sound gs -> Forall (fair m (object_of s)) gs.
Proof.
  intros ((k & Mk) & H & N & IN & _) PS SO. pose proof (passed_kinds e k s0 h s t0 b v gs Mk H IN N PS) as K.
  rewrite Forall_forall in *. intros g G. split; [apply (SO g G)|]. split; [apply (SO g G)|]. exact (K g G).
Qed.

(** The reading is settled by what the calls say: two objects, of whatever past, bases and numerics,
    with the same settings and the same journey show the same at a node and all above it if the same
    was put in there, whatever was put in at lower nodes. *)
Theorem c95_same_answer e e' mat_of mat_of' dot dot' dec dec' s0 s0' h h' s s' t0 b v v' gs k :
  lived_all e mat_of dot dec s0 h s -> lived_all e' mat_of' dot' dec' s0' h' s' -> passed tab h t0 b v gs -> passed tab h' t0 b v' gs ->
  Forall sound gs -> alike (object_of s) (object_of s') ->
  (forall ie r j, (k <= ie < q_ne s)%nat -> (r < q_nrhos s)%nat -> (j < q_numneu s)%nat -> v' ie r j = v ie r j) ->
  forall ie r f, (k <= ie < q_ne s)%nat -> (r < q_nrhos s)%nat -> (f < q_numneu s)%nat ->
    content order dec' s' ie r f = content order dec s ie r f /\ mass_content dec' s' ie r f = mass_content dec s ie r f.
Proof.
  intros L L' P P' SO AL V ie r f Hi Hr Hf.
  pose proof (passed_fair e mat_of dot dec s0 h s t0 b v gs L P SO) as FA.
  pose proof (lived_all_min _ _ _ _ _ _ _ L) as L3.
  assert (OO : Forall (fun p => (fst p < snd p < q_numneu s)%nat) order) by apply L. assert (GM : good_media m) by apply L.
  destruct (c95_reading e mat_of dot dec s0 h s t0 b v gs L P) as (B & W & C).
  destruct (c95_reading e' mat_of' dot' dec' s0' h' s' t0 b v' gs L' P') as (B' & W' & C').
  pose proof AL as (N & NR & NE & NI & SS). cbn in N, NR, NE.
  apply (voyage_alike order m emission _ _ _ _ _ _ AL L3 OO FA) in W'.
  assert (EQ : meq (q_numneu s) (B ie r) (B' ie r)).
  { apply (voyage_upper order m emission GM (object_of s) k t0 gs _ _ B B' L3 (ordered_ok _ _ OO) FA W W'); [|exact Hi|exact Hr].
    intros e1 r1 H1 R1. cbn in H1, R1. rewrite (put_in_alike order (object_of s) (object_of s') (basis_of b) v v' e1 r1 AL OO); [apply meq_refl|cbn; lia|exact R1|].
    intros j Hj. apply V; assumption. }
  destruct (C ie r f ltac:(lia) Hr Hf) as (-> & ->). destruct (C' ie r f ltac:(lia) ltac:(lia) ltac:(lia)) as (-> & ->). rewrite N.
  assert (SF : flavour order (at_node (object_of s') ie r) f = flavour order (at_node (object_of s) ie r) f) by (apply same_flavour; [apply SS; cbn; (assumption || lia)|exact OO]).
  rewrite SF. split; apply expect_meq; try apply meq_refl; apply meq_sym, EQ.
Qed.

(** What is put in and emitted is not negative: nothing read is. *)
Theorem c95_nonneg e mat_of dot dec s0 h s t0 b v gs : lived_all e mat_of dot dec s0 h s -> passed tab h t0 b v gs ->
  Forall sound gs -> (forall i, (S i < q_ne s)%nat -> nth i (q_E s) 0 <= nth (S i) (q_E s) 0) -> (forall b p ie r f, 0 <= emission b p ie r f) ->
  (forall ie r j, (ie < q_ne s)%nat -> (r < q_nrhos s)%nat -> (j < q_numneu s)%nat -> 0 <= v ie r j) ->
  forall ie r f, (ie < q_ne s)%nat -> (r < q_nrhos s)%nat -> (f < q_numneu s)%nat -> 0 <= content order dec s ie r f /\ 0 <= mass_content dec s ie r f.
Proof.
  intros L P SO Ri EM V ie r f Hi Hr Hf.
  pose proof (passed_fair e mat_of dot dec s0 h s t0 b v gs L P SO) as FA. pose proof (lived_all_min _ _ _ _ _ _ _ L) as L3.
  assert (OO : Forall (fun p => (fst p < snd p < q_numneu s)%nat) order) by apply L. assert (GM : good_media m) by apply L. pose proof (ordered_ok _ _ OO) as PO.
  destruct (c95_reading e mat_of dot dec s0 h s t0 b v gs L P) as (B & W & C). destruct (C ie r f Hi Hr Hf) as (-> & ->).
  assert (PB : psd (q_numneu s) (B ie r)).
  { apply (voyage_psd order m emission GM (object_of s) t0 gs _ B L3 PO FA Ri EM W); [|exact Hi|exact Hr].
    intros e1 r1 H1 R1. apply (ini_psd order (at_node (object_of s) e1 r1) (basis_of b) (v e1 r1) PO). intros j Hj. apply V; assumption. }
  split; apply psd_content; try exact PB.
  - apply (flavour_projector order (object_of s) PO). exact Hf.
  - destruct (starting_frame order (at_node (object_of s) ie r) BMass PO) as (Vm & U & F). exact (proj1 (frame_projector _ Vm _ f U F Hf)).
Qed.

(** Interactions off and no sources: each node and kind as C94 says. *)
Theorem c95_plain e mat_of dot dec s0 h s t0 b v gs : lived_all e mat_of dot dec s0 h s -> passed tab h t0 b v gs ->
  o_int (q_opts s) = false -> Forall (fun g => sg_src g = false) gs ->
  forall ie r f, (ie < q_ne s)%nat -> (r < q_nrhos s)%nat -> (f < q_numneu s)%nat ->
    answer order m (settings_of s ie r) t0 (basis_of b) (v ie r) (legs gs) f (content order dec s ie r f) /\
    mass_answer order m (settings_of s ie r) t0 (basis_of b) (v ie r) (legs gs) f (mass_content dec s ie r f).
Proof.
  intros L P OI SR ie r f Hi Hr Hf. destruct (c95_reading e mat_of dot dec s0 h s t0 b v gs L P) as (B & W & C).
  destruct (C ie r f Hi Hr Hf) as (-> & ->).
  pose proof (voyage_plain order m emission (object_of s) t0 gs _ B ie r OI SR W Hi Hr) as Y.
  split; exists (B ie r); split; try reflexivity; exact Y.
Qed.
End Reading.

Print Assumptions c95_reading.
Print Assumptions c95_same_answer.
Print Assumptions c95_nonneg.
Print Assumptions c95_plain.
