(** C102: from valid cross-section tables the tables of interactions are
    made, and they hold averages of the cross sections. *)
From Coq Require Import Reals ZArith List Arith Bool Lia Lra.
From Verif Require Import Err TauModel XsModel TauProps XsProps QuadModel QuadProps QuadBoundProps DisTabModel DisTabProofs.
From Verif Require XsTabModel XsTabProofs XsTabProps.
Import ListNotations.
Open Scope R_scope.

(** tables for the three flavours, over positive energies *)
Definition tabulated (X : xs) : Prop := 0 < x_Emin X <= x_Emax X /\ forall f, f <> sterile -> exists d, has_data X f d.
(** positive energies in ascending order up to [top], in bins the integration does not refuse *)
Definition grid (ne : nat) (E : nat -> R) (top : R) : Prop :=
  0 < E 0%nat /\ (forall b, (S b < ne)%nat -> E b < E (S b) /\ ~ too_narrow (E b) (E (S b))) /\ (forall e, (e < ne)%nat -> E e <= top).

Lemma grid_pos ne E top e : grid ne E top -> (e < ne)%nat -> 0 < E e.
Proof.
  intros (P & A & _). induction e as [|e IH]; intro L; [exact P|]. destruct (A e L). specialize (IH ltac:(lia)). lra.
Qed.

Section DisTab.
Variables GeV tiny : R.
Hypothesis GeV_pos : 0 < GeV.
Hypothesis tiny_pos : 0 < tiny.

(** the total cross section is a positive number at every energy up to the end of the tables *)
Lemma total_pos X e f t c : tabulated X -> f <> sterile -> 0 < e <= x_Emax X -> exists v, dis_total GeV tiny X e f t c = Ok v /\ 0 < v.
Proof.
  intros (P & H) F L. destruct (H f F) as (d & D). destruct (Rle_lt_dec (x_Emin X) e) as [A|A].
  - destruct (c31_dis_total GeV tiny X e f t c d F D ltac:(lra)) as (v & V & W & _). eauto.
  - destruct (Rle_lt_dec (x_Emin X) (10 * GeV)) as [B|B]; [|destruct (Rle_lt_dec (10 * GeV) e) as [C|C]].
    3: { exists tiny. split; [|exact tiny_pos]. apply c32_neglected; try assumption; lra. }
    all: destruct (c32_below GeV tiny X e f t c d F D P A ltac:(auto)) as (v & V & W);
      destruct (c31_dis_total GeV tiny X (x_Emin X) f t c d F D ltac:(lra)) as (v' & V' & W' & _);
      rewrite V in V'; injection V' as <-; exists (v * (e / x_Emin X)); split; [exact W|];
      apply Rmult_lt_0_compat; [exact W'|apply Rdiv_lt_0_compat; lra].
Qed.
Lemma single_pos X e e' f t c : tabulated X -> f <> sterile -> e <= x_Emax X -> exists v, dis_single GeV tiny X e e' f t c = Ok v /\ 0 < v.
Proof. intros (P & H) F L. destruct (H f F) as (d & D). eapply c31_dis_single; try eassumption. lra. Qed.
Lemma avtotal_pos X lo hi f t c : tabulated X -> f <> sterile -> 0 < lo < hi -> hi <= x_Emax X -> ~ too_narrow lo hi ->
  ev (fun fuel => exists v, average_total fuel (fun e => dis_total GeV tiny X e f t c) lo hi = Ok v /\ 0 < v).
Proof.
  intros T F L M N. eapply ev_imp; [|apply (fast_out_pos (fun e => dis_total GeV tiny X e f t c) lo hi L N); intros x Hx; apply total_pos; try assumption; lra].
  intros m (v & V & W). cbn beta. unfold average_total. rewrite V. cbn [obind]. exists (v / (hi - lo)). split; [reflexivity|apply Rdiv_lt_0_compat; lra].
Qed.
Lemma average_pos X e lo hi f t c : tabulated X -> f <> sterile -> e <= x_Emax X -> 0 < lo < hi -> ~ too_narrow lo hi ->
  ev (fun fuel => exists v, dis_average GeV tiny X (fast_out fuel) e lo hi f t c = Ok v /\ 0 < v).
Proof.
  intros T F M L N. eapply ev_imp; [|apply (fast_out_pos (fun e' => dis_single GeV tiny X e e' f t c) lo hi L N); intros x Hx; apply single_pos; assumption].
  intros m (v & V & W). cbn beta. unfold dis_average, single_checks.
  assert (SF : is_sterile f = false) by (destruct f; (reflexivity || congruence)). rewrite SF.
  unfold rlt, rle. destruct (Rlt_dec (x_Emax X) e); [lra|]. destruct (Rle_dec e (x_Emin X)); [eauto|].
  destruct (Rlt_dec hi lo); [lra|]. destruct (Req_EM_T lo hi); [lra|]. rewrite V. cbn [obind]. exists (v / (hi - lo)). split; [reflexivity|apply Rdiv_lt_0_compat; lra].
Qed.

(** ** At the nodes: the functions of the object give numbers, positive for the active flavours *)

Definition sterile_or_pos (f : XsTabModel.flavour) (o : outcome XsTabModel.xval) : Prop :=
  exists v, o = Ok (XsTabModel.Num v) /\ (f <> XsTabModel.Sterile -> 0 < v).
Definition good_at_nodes (ne : nat) (E : nat -> R) (x : XsTabModel.xs) : Prop :=
  (forall e, (e < ne)%nat -> forall f a i, sterile_or_pos f (XsTabModel.x_total x (E e) f a i)) /\
  (forall e, (e < ne)%nat -> forall e', (e' < ne)%nat -> forall f a i, sterile_or_pos f (XsTabModel.x_diff x (E e) (E e') f a i)) /\
  (forall b, (b < ne - 1)%nat -> forall f a i, sterile_or_pos f (XsTabModel.x_avtotal x (E b) (E (S b)) f a i)) /\
  (forall e, (e < ne)%nat -> forall b, (b < ne - 1)%nat -> forall f a i, sterile_or_pos f (XsTabModel.x_avdiff x (E e) (E b) (E (S b)) f a i)).

Lemma fl_active f : f <> XsTabModel.Sterile -> fl_of f <> sterile.
Proof. destruct f; [discriminate..|]. intro H. now exfalso. Qed.
Lemma sp_pos f o : (exists v, o = Ok v /\ 0 < v) -> sterile_or_pos f (num o).
Proof. intros (v & -> & P). exists v. split; [reflexivity|auto]. Qed.
Lemma sp_zero o : o = Ok 0 -> sterile_or_pos XsTabModel.Sterile (num o).
Proof. intros ->. exists 0. split; [reflexivity|]. intro H. now exfalso. Qed.
Definition st_dec (f : XsTabModel.flavour) : {f = XsTabModel.Sterile} + {f <> XsTabModel.Sterile}.
Proof. destruct f; [right; discriminate..|left; reflexivity]. Defined.

Lemma dis_good X ne E : tabulated X -> grid ne E (x_Emax X) -> ev (fun fuel => good_at_nodes ne E (dis_xs GeV tiny fuel X)).
Proof.
  intros T G. pose proof G as (P & A & M). unfold good_at_nodes. repeat apply ev_and; cbn [dis_xs XsTabModel.x_total XsTabModel.x_diff XsTabModel.x_avtotal XsTabModel.x_avdiff].
  - apply ev_always. intros _ e L f a i. destruct (st_dec f) as [->|F]; [apply sp_zero; reflexivity|].
    apply sp_pos, total_pos; [exact T|now apply fl_active|]. split; [eapply grid_pos; eassumption|auto].
  - apply ev_always. intros _ e L e' L' f a i. destruct (st_dec f) as [->|F]; [apply sp_zero; reflexivity|].
    apply sp_pos, single_pos; [exact T|now apply fl_active|auto].
  - apply ev_lt. intros b L. apply ev_fl. intro f. apply ev_bool. intro a. apply ev_cur. intro i. destruct (st_dec f) as [->|F].
    + apply ev_always. intro m. apply sp_zero. unfold average_total. rewrite fast_out_zero by reflexivity. cbn [obind]. f_equal. unfold Rdiv. ring.
    + eapply ev_imp; [intros m H; apply sp_pos; exact H|]. destruct (A b ltac:(lia)). pose proof (grid_pos ne E _ b G ltac:(lia)). apply avtotal_pos; try assumption; [now apply fl_active|lra|apply M; lia].
  - apply ev_lt. intros e Le. apply ev_lt. intros b L. apply ev_fl. intro f. apply ev_bool. intro a. apply ev_cur. intro i. destruct (st_dec f) as [->|F].
    + apply ev_always. intro m. apply sp_zero. reflexivity.
    + eapply ev_imp; [intros m H; apply sp_pos; exact H|]. destruct (A b ltac:(lia)). pose proof (grid_pos ne E _ b G ltac:(lia)). apply average_pos; try assumption; [now apply fl_active|auto|lra].
Qed.

(** ** An object with the same values at the nodes and others elsewhere *)

Definition at_node (ne : nat) (E : nat -> R) (e : R) : bool := existsb (fun i => if Req_EM_T e (E i) then true else false) (seq 0 ne).
Definition over_bin (ne : nat) (E : nat -> R) (lo hi : R) : bool :=
  existsb (fun b => if Req_EM_T lo (E b) then (if Req_EM_T hi (E (S b)) then true else false) else false) (seq 0 (ne - 1)).
Definition completed (ne : nat) (E : nat -> R) (x : XsTabModel.xs) : XsTabModel.xs := XsTabModel.Xs
  (fun e f a i => if at_node ne E e then XsTabModel.x_total x e f a i else Ok (XsTabModel.Num 1))
  (fun e e' f a i => if at_node ne E e && at_node ne E e' then XsTabModel.x_diff x e e' f a i else Ok (XsTabModel.Num 0))
  (fun lo hi f a i => if over_bin ne E lo hi then XsTabModel.x_avtotal x lo hi f a i else Ok (XsTabModel.Num 1))
  (fun e lo hi f a i => if at_node ne E e && over_bin ne E lo hi then XsTabModel.x_avdiff x e lo hi f a i else Ok (XsTabModel.Num 0)).

Lemma at_node_in ne E e : (e < ne)%nat -> at_node ne E (E e) = true.
Proof. intro L. apply existsb_exists. exists e. split; [apply in_seq; lia|]. destruct (Req_EM_T _ _); [reflexivity|congruence]. Qed.
Lemma over_bin_in ne E b : (S b < ne)%nat -> over_bin ne E (E b) (E (S b)) = true.
Proof. intro L. apply existsb_exists. exists b. split; [apply in_seq; lia|]. destruct (Req_EM_T _ _); [|congruence]. destruct (Req_EM_T _ _); [reflexivity|congruence]. Qed.
Lemma at_node_out ne E e : at_node ne E e = true -> exists i, (i < ne)%nat /\ e = E i.
Proof. intro H. apply existsb_exists in H as (i & I & H). apply in_seq in I. destruct (Req_EM_T e (E i)); [|discriminate]. exists i. split; [lia|assumption]. Qed.
Lemma over_bin_out ne E lo hi : over_bin ne E lo hi = true -> exists b, (b < ne - 1)%nat /\ lo = E b /\ hi = E (S b).
Proof. intro H. apply existsb_exists in H as (i & I & H). apply in_seq in I. destruct (Req_EM_T lo (E i)); [|discriminate]. destruct (Req_EM_T hi _); [|discriminate]. exists i. repeat split; [lia|assumption..]. Qed.
Lemma completed_same ne E x : same_at_nodes ne E x (completed ne E x).
Proof.
  repeat split; intros; cbn [completed XsTabModel.x_total XsTabModel.x_diff XsTabModel.x_avtotal XsTabModel.x_avdiff];
    rewrite ?at_node_in, ?over_bin_in by assumption; reflexivity.
Qed.

Section Completed.
Variable ne : nat.
Variable E : nat -> R.
Variable x : XsTabModel.xs.
Hypothesis G : good_at_nodes ne E x.
Lemma completed_total e f a i : sterile_or_pos f (XsTabModel.x_total (completed ne E x) e f a i).
Proof. cbn. destruct (at_node ne E e) eqn:H; [|exists 1; split; [reflexivity|intros; lra]]. apply at_node_out in H as (k & L & ->). now apply G. Qed.
Lemma completed_avtotal lo hi f a i : sterile_or_pos f (XsTabModel.x_avtotal (completed ne E x) lo hi f a i).
Proof. cbn. destruct (over_bin ne E lo hi) eqn:H; [|exists 1; split; [reflexivity|intros; lra]]. apply over_bin_out in H as (k & L & -> & ->). now apply G. Qed.
Lemma completed_diff e e' f a i : exists v, XsTabModel.x_diff (completed ne E x) e e' f a i = Ok (XsTabModel.Num v) /\ (f <> XsTabModel.Sterile -> 0 <= v).
Proof.
  cbn. destruct (at_node ne E e) eqn:H; [|exists 0; split; [reflexivity|intros; lra]]. destruct (at_node ne E e') eqn:H'; [|exists 0; split; [reflexivity|intros; lra]].
  apply at_node_out in H as (k & L & ->). apply at_node_out in H' as (k' & L' & ->). cbn [andb].
  destruct G as (_ & G2 & _). destruct (G2 k L k' L' f a i) as (v & V & W). exists v. split; [exact V|]. intro F. specialize (W F). lra.
Qed.
Lemma completed_avdiff e lo hi f a i : exists v, XsTabModel.x_avdiff (completed ne E x) e lo hi f a i = Ok (XsTabModel.Num v) /\ (f <> XsTabModel.Sterile -> 0 <= v).
Proof.
  cbn. destruct (at_node ne E e) eqn:H; [|exists 0; split; [reflexivity|intros; lra]]. destruct (over_bin ne E lo hi) eqn:H'; [|exists 0; split; [reflexivity|intros; lra]].
  apply at_node_out in H as (k & L & ->). apply over_bin_out in H' as (k' & L' & -> & ->). cbn [andb].
  destruct G as (_ & _ & _ & G4). destruct (G4 k L k' L' f a i) as (v & V & W). exists v. split; [exact V|]. intro F. specialize (W F). lra.
Qed.
Lemma completed_node_total fl a i e v : fl <> XsTabModel.Sterile -> XsTabProps.node_total E (completed ne E x) fl a i e v -> exists q, v = XsTabModel.Num q /\ 0 < q.
Proof.
  intros F (H0 & H1). destruct e as [|b].
  - specialize (H0 eq_refl). destruct (completed_total (E 0%nat) fl a i) as (q & Q & W). rewrite Q in H0. injection H0 as <-. eauto.
  - specialize (H1 b eq_refl). destruct (completed_avtotal (E b) (E (S b)) fl a i) as (q & Q & W). rewrite Q in H1. injection H1 as <-. eauto.
Qed.
Lemma completed_sound : XsTabProps.sound E (completed ne E x).
Proof.
  repeat split.
  - intros. destruct (completed_total e f a i) as (v & V & _). eauto.
  - intros. destruct (completed_diff e e' f a i) as (v & V & _). eauto.
  - intros. destruct (completed_avtotal e e' f a i) as (v & V & _). eauto.
  - intros. destruct (completed_avdiff e e' e'' f a i) as (v & V & _). eauto.
  - intros fl a i e v F H. destruct (completed_node_total fl a i e v F H) as (q & -> & Q). exists q. split; [reflexivity|lra].
  - intros fl a i e e' v F (H0 & H1). destruct e' as [|b].
    + specialize (H0 eq_refl). destruct (completed_diff (E e) (E 0%nat) fl a i) as (q & Q & W). rewrite Q in H0. injection H0 as <-. exists q. auto.
    + specialize (H1 b eq_refl). destruct (completed_avdiff (E e) (E b) (E (S b)) fl a i) as (q & Q & W). rewrite Q in H1. injection H1 as <-. exists q. auto.
  - intros fl a i e e' v F H _. destruct (completed_node_total fl a i e _ F H) as (q & [= <-] & Q). lra.
Qed.
End Completed.

(** ** The theorems *)

(** with an object [el'] for electrons which is sound and the same at the nodes *)
Lemma made_with Xp Xn other el' tau_all tau_lep cm2 cm2GeV GeVm1 nt numneu ne E glashow odd fuel s :
  0 < cm2 -> 0 < cm2GeV -> good_at_nodes ne E (dis_xs GeV tiny fuel Xp) -> good_at_nodes ne E (dis_xs GeV tiny fuel Xn) ->
  (glashow = true -> nt <> XsTabModel.Neutrino -> el' <> None) -> alike ne E (other XsTabModel.electron) el' -> (forall x, el' = Some x -> XsTabProps.sound E x) ->
  exists s', XsTabModel.make (dis_lib GeV tiny fuel Xp Xn other) tau_all tau_lep cm2 cm2GeV GeVm1 nt numneu ne E glashow odd s = Ok ([XsTabModel.proton; XsTabModel.neutron], s').
Proof.
  intros C1 C2 Dp Dn He Ha Hs.
  set (lib' := fun c => if Z.eqb c XsTabModel.proton then Some (completed ne E (dis_xs GeV tiny fuel Xp))
    else if Z.eqb c XsTabModel.neutron then Some (completed ne E (dis_xs GeV tiny fuel Xn)) else if Z.eqb c XsTabModel.electron then el' else None).
  rewrite (make_ext cm2 cm2GeV nt numneu ne E odd _ lib');
    [|eexists; reflexivity|eexists; reflexivity|apply completed_same|apply completed_same|exact Ha].
  destruct (XsTabProps.c75_succeeds lib' tau_all tau_lep cm2 cm2GeV GeVm1 nt numneu ne E glashow odd s C1 C2) as (l & s' & H).
  - left. split; discriminate.
  - exact He.
  - intros c x. unfold lib'. destruct (Z.eqb_spec c XsTabModel.proton); [intros [= <-]; now apply completed_sound|].
    destruct (Z.eqb_spec c XsTabModel.neutron); [intros [= <-]; now apply completed_sound|]. destruct (Z.eqb_spec c XsTabModel.electron) as [->|]; [apply Hs|discriminate].
  - exists s'. rewrite H. f_equal. f_equal. unfold XsTabModel.make in H. change (XsTabModel.choose_targets lib') with (@Ok (list Z) [XsTabModel.proton; XsTabModel.neutron]) in H.
    cbn [obind] in H. destruct (XsTabModel.get_cross_sections _ _ _ _ _ _ _ _ _ _ _ _ _ s); try discriminate. now injection H as <- _.
Qed.

(** With tables for both nucleons over all of the energy grid, and a sound
    cross section on electrons where one is needed, initialization of the
    interactions succeeds, whatever the arrays held and the library holds for
    other targets. *)
Theorem c102_tables : forall Xp Xn other tau_all tau_lep cm2 cm2GeV GeVm1 nt numneu ne E glashow odd,
  0 < cm2 -> 0 < cm2GeV -> tabulated Xp -> tabulated Xn -> grid ne E (x_Emax Xp) -> grid ne E (x_Emax Xn) ->
  (glashow = true -> nt <> XsTabModel.Neutrino -> other XsTabModel.electron <> None) ->
  (forall x, other XsTabModel.electron = Some x -> XsTabProps.sound E x) ->
  exists N, forall fuel, (N <= fuel)%nat -> forall s, exists s',
    XsTabModel.make (dis_lib GeV tiny fuel Xp Xn other) tau_all tau_lep cm2 cm2GeV GeVm1 nt numneu ne E glashow odd s = Ok ([XsTabModel.proton; XsTabModel.neutron], s').
Proof.
  intros Xp Xn other tau_all tau_lep cm2 cm2GeV GeVm1 nt numneu ne E glashow odd C1 C2 Tp Tn Gp Gn He Hs.
  destruct (ev_and _ _ (dis_good Xp ne E Tp Gp) (dis_good Xn ne E Tn Gn)) as (N & HN). exists N. intros fuel L s. destruct (HN fuel L) as (Dp & Dn).
  apply (made_with Xp Xn other (other XsTabModel.electron)); try assumption. destruct (other XsTabModel.electron); [|exact I]. repeat split.
Qed.

(** ** The cross section on electrons *)

Lemma num_ok o v : num o = Ok v -> exists q, o = Ok q /\ v = XsTabModel.Num q.
Proof. destruct o as [q| |]; [intros [= <-]; eauto|discriminate..]. Qed.

Section Resonance.
Variables GF cm me mmu : R.
Hypothesis GF_pos : 0 < GF.
Hypothesis cm_pos : 0 < cm.
Hypothesis me_pos : 0 < me.
Notation grt := (gr_total GF cm me mmu GeV).
Notation grs := (gr_single GF cm me mmu GeV).

Lemma gr_nonneg e e' f t c : 0 < e -> 0 <= grt e f t c /\ 0 <= grs e e' f t c.
Proof. apply c30_nonnegative; assumption. Qed.
(** the resonant cross section vanishes at the threshold only *)
Lemma gr_zero e : 0 < e -> grt e electron antineutrino GR = 0 -> 2 * me * e = mmu * mmu - me * me.
Proof.
  intros P H. unfold gr_total in H. cbn [is_resonance] in H.
  assert (Hf : 0 < fermi_scale GF cm me).
  { unfold fermi_scale. pose proof PI_RGT_0. apply Rdiv_lt_0_compat; [|assumption]. apply Rmult_lt_0_compat; [|assumption]. apply pow_lt, Rdiv_lt_0_compat; assumption. }
  assert (Hw : 0 < (W_total GeV / M_W GeV) ^ 2) by (unfold W_total, M_W; apply pow_lt, Rdiv_lt_0_compat; lra).
  pose proof (pow2_ge_0 (1 - 2 * me * e / (M_W GeV * M_W GeV))) as Hq.
  assert (D : 0 < (1 - 2 * me * e / (M_W GeV * M_W GeV)) ^ 2 + (W_total GeV / M_W GeV) ^ 2) by lra.
  set (den := (1 - 2 * me * e / (M_W GeV * M_W GeV)) ^ 2 + (W_total GeV / M_W GeV) ^ 2) in *.
  set (y := 1 - (mmu * mmu - me * me) / (2 * me * e)) in *.
  assert (Y : y = 0).
  { destruct (Req_dec y 0) as [|Ny]; [assumption|exfalso].
    assert (0 < y ^ 2) by (rewrite <- Rsqr_pow2; now apply Rlt_0_sqr).
    assert (0 < 2 * fermi_scale GF cm me * e * y ^ 2 / den / B_Muon / 3); [|lra].
    apply Rdiv_lt_0_compat; [|lra]. apply Rdiv_lt_0_compat; [|unfold B_Muon; lra]. apply Rdiv_lt_0_compat; [|exact D].
    apply Rmult_lt_0_compat; [|assumption]. apply Rmult_lt_0_compat; [|assumption]. lra. }
  unfold y in Y. assert (Z : 0 < 2 * me * e) by (apply Rmult_lt_0_compat; lra).
  assert (K : (mmu * mmu - me * me) / (2 * me * e) = 1) by lra.
  replace (mmu * mmu - me * me) with ((mmu * mmu - me * me) / (2 * me * e) * (2 * me * e)) by (field; lra). rewrite K. ring.
Qed.
Lemma gr_barely a b : 0 < a -> barely (fun e => grt e electron antineutrino GR) a b.
Proof.
  intro P. split.
  - intros x Hx. apply (gr_nonneg x 0). lra.
  - intros x y L M _. destruct (gr_nonneg x 0 electron antineutrino GR ltac:(lra)) as (X & _). destruct (gr_nonneg y 0 electron antineutrino GR ltac:(lra)) as (Y & _).
    destruct (Req_dec (grt x electron antineutrino GR) 0) as [Zx|]; [|lra]. destruct (Req_dec (grt y electron antineutrino GR) 0) as [Zy|]; [|lra].
    apply gr_zero in Zx; [|lra]. apply gr_zero in Zy; [|lra]. exfalso. assert (2 * me * x = 2 * me * y) by lra. assert (x = y); [|lra]. apply (Rmult_eq_reg_l (2 * me)); lra.
Qed.
Lemma gr_off f t c : is_resonance f t c = false -> forall e e', grt e f t c = 0 /\ grs e e' f t c = 0.
Proof. intros H e e'. unfold gr_total, gr_single. now rewrite H. Qed.

Definition answers_nonneg (o : outcome XsTabModel.xval) : Prop := exists v, o = Ok (XsTabModel.Num v) /\ 0 <= v.
Definition gr_good (ne : nat) (E : nat -> R) (fuel : nat) : Prop :=
  (forall b, (b < ne - 1)%nat -> forall f a i, answers_nonneg (XsTabModel.x_avtotal (gr_xs GeV fuel GF cm me mmu) (E b) (E (S b)) f a i)) /\
  (forall e, (e < ne)%nat -> forall b, (b < ne - 1)%nat -> forall f a i, answers_nonneg (XsTabModel.x_avdiff (gr_xs GeV fuel GF cm me mmu) (E e) (E b) (E (S b)) f a i)).
Lemma average_nonneg g lo hi : 0 < lo < hi -> ~ too_narrow lo hi -> (forall x, lo <= x <= hi -> 0 <= g x) ->
  ev (fun fuel => answers_nonneg (num (average_total fuel (fun e => Ok (g e)) lo hi))).
Proof.
  intros L N H. eapply ev_imp; [|apply (fast_out_ok (fun e => Ok (g e)) lo hi L N)]. intros m (v & V). unfold average_total. rewrite V. cbn [obind num]. exists (v / (hi - lo)). split; [reflexivity|].
  eapply fast_out_nonneg; [exact (proj2 L)| |exact V]. exact H.
Qed.
Lemma gr_is_good ne E top : grid ne E top -> ev (gr_good ne E).
Proof.
  intro G. pose proof G as (_ & A & _). unfold gr_good. apply ev_and; cbn [gr_xs XsTabModel.x_avtotal XsTabModel.x_avdiff].
  - apply ev_lt. intros b L. apply ev_fl. intro f. apply ev_bool. intro a. apply ev_cur. intro i. destruct (A b ltac:(lia)). pose proof (grid_pos ne E _ b G ltac:(lia)).
    apply (average_nonneg (fun e => grt e (fl_of f) (ty_of a) (cur_of i))); [lra|assumption|]. intros x Hx. apply (gr_nonneg x 0). lra.
  - apply ev_lt. intros e Le. apply ev_lt. intros b L. apply ev_fl. intro f. apply ev_bool. intro a. apply ev_cur. intro i. destruct (A b ltac:(lia)). pose proof (grid_pos ne E _ b G ltac:(lia)). pose proof (grid_pos ne E _ e G Le).
    apply (average_nonneg (fun e' => grs (E e) e' (fl_of f) (ty_of a) (cur_of i))); [lra|assumption|]. intros x Hx. now apply gr_nonneg.
Qed.

Section Sound.
Variables (ne : nat) (E : nat -> R) (top : R) (fuel : nat).
Hypothesis G : grid ne E top.
Hypothesis W : gr_good ne E fuel.
Notation X := (completed ne E (gr_xs GeV fuel GF cm me mmu)).
Lemma gr_c_total e f a i : answers_nonneg (XsTabModel.x_total X e f a i).
Proof. cbn. destruct (at_node ne E e) eqn:H; [|exists 1; split; [reflexivity|lra]]. apply at_node_out in H as (k & L & ->). eexists. split; [reflexivity|]. apply (gr_nonneg _ 0). eapply grid_pos; eassumption. Qed.
Lemma gr_c_diff e e' f a i : answers_nonneg (XsTabModel.x_diff X e e' f a i).
Proof.
  cbn. destruct (at_node ne E e) eqn:H; [|exists 0; split; [reflexivity|lra]]. destruct (at_node ne E e'); [|exists 0; split; [reflexivity|lra]].
  apply at_node_out in H as (k & L & ->). eexists. split; [reflexivity|]. apply gr_nonneg. eapply grid_pos; eassumption.
Qed.
Lemma gr_c_avtotal lo hi f a i : answers_nonneg (XsTabModel.x_avtotal X lo hi f a i).
Proof. cbn [completed XsTabModel.x_avtotal]. destruct (over_bin ne E lo hi) eqn:H; [|exists 1; split; [reflexivity|lra]]. apply over_bin_out in H as (k & L & -> & ->). now apply W. Qed.
Lemma gr_c_avdiff e lo hi f a i : answers_nonneg (XsTabModel.x_avdiff X e lo hi f a i).
Proof.
  cbn [completed XsTabModel.x_avdiff]. destruct (at_node ne E e) eqn:H; [|exists 0; split; [reflexivity|lra]]. destruct (over_bin ne E lo hi) eqn:H'; [|exists 0; split; [reflexivity|lra]].
  apply at_node_out in H as (k & L & ->). apply over_bin_out in H' as (k' & L' & -> & ->). now apply W.
Qed.
(** differential cross sections which are zero throughout *)
Lemma gr_diff_zero e f a i : (forall e', grs e e' (fl_of f) (ty_of a) (cur_of i) = 0) -> forall e' lo hi,
  XsTabModel.x_diff X e e' f a i = Ok (XsTabModel.Num 0) /\ XsTabModel.x_avdiff X e lo hi f a i = Ok (XsTabModel.Num 0).
Proof.
  intros Z e' lo hi. cbn. rewrite Z. unfold average_total. rewrite fast_out_zero by (intro; now rewrite Z). cbn [obind num]. split.
  - now destruct (_ && _).
  - destruct (_ && _); [|reflexivity]. do 2 f_equal. unfold Rdiv. ring.
Qed.
Lemma gr_sound : XsTabProps.sound E X.
Proof.
  repeat split.
  - intros. destruct (gr_c_total e f a i) as (v & V & _). eauto.
  - intros. destruct (gr_c_diff e e' f a i) as (v & V & _). eauto.
  - intros. destruct (gr_c_avtotal e e' f a i) as (v & V & _). eauto.
  - intros. destruct (gr_c_avdiff e e' e'' f a i) as (v & V & _). eauto.
  - intros fl a i e v _ (H0 & H1). destruct e as [|b].
    + specialize (H0 eq_refl). destruct (gr_c_total (E 0%nat) fl a i) as (q & Q & P). rewrite Q in H0. injection H0 as <-. exists q. auto.
    + specialize (H1 b eq_refl). destruct (gr_c_avtotal (E b) (E (S b)) fl a i) as (q & Q & P). rewrite Q in H1. injection H1 as <-. exists q. auto.
  - intros fl a i e e' v _ (H0 & H1). destruct e' as [|b].
    + specialize (H0 eq_refl). destruct (gr_c_diff (E e) (E 0%nat) fl a i) as (q & Q & P). rewrite Q in H0. injection H0 as <-. exists q. auto.
    + specialize (H1 b eq_refl). destruct (gr_c_avdiff (E e) (E b) (E (S b)) fl a i) as (q & Q & P). rewrite Q in H1. injection H1 as <-. exists q. auto.
  - intros fl a i e e' v _ (T0 & T1) (H0 & H1).
    assert (Zero : (forall x, grs (E e) x (fl_of fl) (ty_of a) (cur_of i) = 0) -> v = XsTabModel.Num 0).
    { intro Z. destruct e' as [|b]; [specialize (H0 eq_refl); rewrite (proj1 (gr_diff_zero (E e) fl a i Z _ 0 0)) in H0; congruence|].
      specialize (H1 b eq_refl). rewrite (proj2 (gr_diff_zero (E e) fl a i Z 0 _ _)) in H1. congruence. }
    destruct (is_resonance (fl_of fl) (ty_of a) (cur_of i)) eqn:Rs; [|apply Zero; intro; now apply gr_off].
    assert (K : fl_of fl = electron /\ ty_of a = antineutrino /\ cur_of i = GR) by (destruct (fl_of fl), (ty_of a), (cur_of i); try discriminate Rs; auto). destruct K as (K1 & K2 & K3).
    destruct e as [|b].
    + specialize (T0 eq_refl). cbn in T0. destruct (at_node ne E (E 0%nat)); [|injection T0; lra]. injection T0 as T0. apply Zero. intro x.
      unfold gr_single. rewrite Rs, T0. destruct (Rlt_dec _ _); [reflexivity|]. cbv zeta. unfold Rdiv. ring.
    + specialize (T1 b eq_refl). cbn [completed gr_xs XsTabModel.x_avtotal] in T1. destruct (over_bin ne E (E b) (E (S b))) eqn:Ob; [|injection T1; lra].
      apply over_bin_out in Ob as (k & Lk & Eb & Es). destruct (proj1 (proj2 G) k ltac:(lia)) as [Lt _]. pose proof (grid_pos ne E _ k G ltac:(lia)) as Pk.
      unfold average_total in T1. destruct (fast_out fuel _ (E b) (E (S b))) as [w| |] eqn:Fo; try discriminate. cbn [obind num] in T1. injection T1 as T1.
      assert (0 < w). { eapply fast_out_barely; [|  |exact Fo]; [rewrite Eb, Es; exact Lt|]. rewrite K1, K2, K3. apply gr_barely. rewrite Eb. exact Pk. }
      exfalso. assert (0 < w / (E (S b) - E b)) by (apply Rdiv_lt_0_compat; rewrite Eb, Es in *; lra). lra.
Qed.
End Sound.

(** So with the default library initialization succeeds for neutrinos,
    antineutrinos or both, with the resonance on or off. *)
Theorem c102_default : forall Xp Xn tau_all tau_lep cm2 cm2GeV GeVm1 nt numneu ne E glashow odd,
  0 < cm2 -> 0 < cm2GeV -> tabulated Xp -> tabulated Xn -> grid ne E (x_Emax Xp) -> grid ne E (x_Emax Xn) ->
  exists N, forall fuel, (N <= fuel)%nat -> forall s, exists s',
    XsTabModel.make (default_lib GeV tiny fuel GF cm me mmu Xp Xn) tau_all tau_lep cm2 cm2GeV GeVm1 nt numneu ne E glashow odd s = Ok ([XsTabModel.proton; XsTabModel.neutron], s').
Proof.
  intros Xp Xn tau_all tau_lep cm2 cm2GeV GeVm1 nt numneu ne E glashow odd C1 C2 Tp Tn Gp Gn.
  destruct (ev_and _ _ (ev_and _ _ (dis_good Xp ne E Tp Gp) (dis_good Xn ne E Tn Gn)) (gr_is_good ne E _ Gp)) as (N & HN). exists N. intros fuel L s. destruct (HN fuel L) as ((Dp & Dn) & Wg).
  apply (made_with Xp Xn _ (Some (completed ne E (gr_xs GeV fuel GF cm me mmu)))); try assumption.
  - discriminate.
  - apply completed_same.
  - intros x [= <-]. eapply gr_sound; eassumption.
Qed.
Lemma gr_average fuel g lo hi q : lo < hi -> (forall x, lo <= x <= hi -> 0 <= g x) -> average_total fuel (fun e => Ok (g e)) lo hi = Ok q ->
  0 <= q /\ forall m M, 0 <= m -> (forall x, lo <= x <= hi -> m <= g x <= M) -> (1 - / 10 ^ 15) * m <= q <= (1 + / 10 ^ 15) * M.
Proof.
  intros L P H. unfold average_total in H. destruct (fast_out fuel _ lo hi) as [w| |] eqn:F; try discriminate. cbn [obind] in H. injection H as <-. split.
  - eapply fast_out_nonneg; [exact L| |exact F]. exact P.
  - intros m M Hm B. unfold fast_out in F. destruct (fast_int _ fuel lo hi _) as [o|] eqn:Fi; [subst o|discriminate]. eapply c20_between; [exact L|exact Hm| |exact Fi]. exact B.
Qed.
(** The table of the resonance, with the default library: no total is zero but
    perhaps the first, so the spectra are numbers, the quotients of such means
    of the cross sections as above. *)
Theorem c102_resonance : forall Xp Xn tau_all tau_lep cm2 cm2GeV GeVm1 nt numneu ne E odd top fuel s l s' e e',
  XsTabModel.make (default_lib GeV tiny fuel GF cm me mmu Xp Xn) tau_all tau_lep cm2 cm2GeV GeVm1 nt numneu ne E true odd s = Ok (l, s') ->
  nt <> XsTabModel.Neutrino -> 0 < cm2 -> grid ne E top -> (e < ne)%nat -> (e' < e)%nat -> exists n d,
  s' (XsTabModel.SGR e) = Some (XsTabModel.Num (d * cm2)) /\ s' (XsTabModel.DGR e e') = Some (XsTabModel.Num (n * cm2GeV / (d * cm2))) /\ 0 < d /\ 0 <= n /\
  (forall b m M, e = S b -> 0 <= m -> (forall x, E b <= x <= E e -> m <= grt x electron antineutrino GR <= M) -> (1 - / 10 ^ 15) * m <= d <= (1 + / 10 ^ 15) * M) /\
  (e' = 0%nat -> n = grs (E e) (E 0%nat) electron antineutrino GR) /\
  (forall b m M, e' = S b -> 0 <= m -> (forall x, E b <= x <= E e' -> m <= grs (E e) x electron antineutrino GR <= M) -> (1 - / 10 ^ 15) * m <= n <= (1 + / 10 ^ 15) * M).
Proof.
  intros Xp Xn tau_all tau_lep cm2 cm2GeV GeVm1 nt numneu ne E odd top fuel s l s' e e' H Hn C1 G L L'. pose proof G as (_ & A & _).
  destruct (XsTabProps.c75_glashow_partial _ _ _ _ _ _ _ _ _ _ _ _ _ _ _ e H eq_refl Hn L) as (x & vd & Hx & (_ & D) & Sd & Hd).
  change (default_lib GeV tiny fuel GF cm me mmu Xp Xn XsTabModel.electron) with (Some (gr_xs GeV fuel GF cm me mmu)) in Hx. injection Hx as <-.
  destruct (Hd e' L') as (vn & (N0 & N1) & Q). clear Hd.
  destruct e as [|b]; [lia|]. specialize (D b eq_refl). cbn [gr_xs XsTabModel.x_avtotal] in D. apply num_ok in D as (d & D & ->).
  destruct (A b L) as [Lt _]. pose proof (grid_pos ne E _ b G ltac:(lia)) as Pb. pose proof (grid_pos ne E _ (S b) G L) as Ps.
  change (fl_of XsTabModel.Electron) with electron in *. change (ty_of true) with antineutrino in *. change (cur_of XsTabModel.GR) with GR in *.
  assert (Dp : 0 < d).
  { unfold average_total in D. destruct (fast_out fuel _ (E b) (E (S b))) as [w| |] eqn:Fo; try discriminate. cbn [obind] in D. injection D as <-.
    apply Rdiv_lt_0_compat; [|lra]. eapply fast_out_barely; [exact Lt| |exact Fo]. now apply gr_barely. }
  destruct (gr_average _ (fun e => grt e electron antineutrino GR) _ _ _ Lt ltac:(intros x Hx; apply (gr_nonneg x 0); lra) D) as (_ & Db).
  assert (Nn : exists n, vn = XsTabModel.Num n /\ 0 <= n /\ (e' = 0%nat -> n = grs (E (S b)) (E 0%nat) electron antineutrino GR) /\
    (forall b' m M, e' = S b' -> 0 <= m -> (forall x, E b' <= x <= E e' -> m <= grs (E (S b)) x electron antineutrino GR <= M) -> (1 - / 10 ^ 15) * m <= n <= (1 + / 10 ^ 15) * M)).
  { destruct e' as [|b'].
    - specialize (N0 eq_refl). cbn [gr_xs XsTabModel.x_diff num obind] in N0. injection N0 as <-. exists (grs (E (S b)) (E 0%nat) electron antineutrino GR). split; [reflexivity|]. split; [now apply gr_nonneg|]. split; [reflexivity|discriminate].
    - specialize (N1 b' eq_refl). cbn [gr_xs XsTabModel.x_avdiff] in N1. apply num_ok in N1 as (n & N1 & ->).
      destruct (A b' ltac:(lia)) as [Lt' _].
      destruct (gr_average _ (fun e' => grs (E (S b)) e' electron antineutrino GR) _ _ _ Lt' ltac:(intros; now apply gr_nonneg) N1) as (Np & Nb).
      exists n. split; [reflexivity|]. split; [exact Np|]. split; [discriminate|]. intros b'' m M [= <-]. apply Nb. }
  destruct Nn as (n & -> & Np & Nz & Nb). exists n, d. split; [exact Sd|]. split; [apply Q; [reflexivity|reflexivity|nra]|].
  split; [exact Dp|]. split; [exact Np|]. split; [intros b' m M [= <-]; apply Db|]. split; [exact Nz|exact Nb].
Qed.
End Resonance.

(** ** What the tables hold *)

(** which flavour, particle and interaction is meant *)
Definition meant_flavour (f : XsTabModel.flavour) (g : flavor) : Prop :=
  In (f, g) [(XsTabModel.Electron, electron); (XsTabModel.Muon, muon); (XsTabModel.Tau, tau)].
Definition meant_particle (a : bool) (g : nutype) : Prop := if a then g = antineutrino else g = neutrino.
Definition meant_current (i : XsTabModel.current) (g : current) : Prop := In (i, g) [(XsTabModel.CC, CC); (XsTabModel.NC, NC)].
Lemma meant f a i g t c : meant_flavour f g -> meant_particle a t -> meant_current i c ->
  g = fl_of f /\ t = ty_of a /\ c = cur_of i /\ f <> XsTabModel.Sterile /\ (i = XsTabModel.CC \/ i = XsTabModel.NC).
Proof.
  intros F A C. split; [|split; [|split; [|split]]].
  - destruct F as [[= <- <-]|[[= <- <-]|[[= <- <-]|[]]]]; reflexivity.
  - destruct a; exact A.
  - destruct C as [[= <- <-]|[[= <- <-]|[]]]; reflexivity.
  - destruct F as [[= <- <-]|[[= <- <-]|[[= <- <-]|[]]]]; discriminate.
  - destruct C as [[= <- <-]|[[= <- <-]|[]]]; auto.
Qed.

Definition total_key (i : XsTabModel.current) := match i with XsTabModel.CC => XsTabModel.SCC | _ => XsTabModel.SNC end.
Definition spectrum_key (i : XsTabModel.current) := match i with XsTabModel.CC => XsTabModel.DCC | _ => XsTabModel.DNC end.

Lemma tiny_margin : 0 < / 10 ^ 15.
Proof. apply Rinv_0_lt_compat, pow_lt; lra. Qed.
Lemma within (m M v : R) : 0 <= m -> m <= v <= M -> (1 - / 10 ^ 15) * m <= v <= (1 + / 10 ^ 15) * M.
Proof. intros Hm H. pose proof tiny_margin as T. pose proof (Rmult_le_pos _ _ (Rlt_le _ _ T) Hm). assert (M0 : 0 <= M) by lra. pose proof (Rmult_le_pos _ _ (Rlt_le _ _ T) M0). lra. Qed.

(** the average with fastInt of a positive function lies between its bounds *)
Lemma fast_out_within fuel g lo hi v m M : lo < hi -> (forall e, lo <= e <= hi -> exists u, g e = Ok u /\ 0 < u) -> 0 <= m ->
  (forall e u, lo <= e <= hi -> g e = Ok u -> m <= u <= M) -> fast_out fuel g lo hi = Ok v -> (1 - / 10 ^ 15) * m <= v / (hi - lo) <= (1 + / 10 ^ 15) * M.
Proof.
  intros L P Hm B H. unfold fast_out in H. destruct (fast_int _ fuel lo hi _) as [o|] eqn:F; [subst o|discriminate].
  eapply c20_between; [exact L|exact Hm| |exact F]. intros e He. cbn beta. destruct (P e He) as (u & U & _). rewrite U. cbn [or_zero]. eapply B; eassumption.
Qed.
Lemma fast_out_positive fuel g lo hi v : lo < hi -> (forall e, lo <= e <= hi -> exists u, g e = Ok u /\ 0 < u) -> fast_out fuel g lo hi = Ok v -> 0 < v / (hi - lo).
Proof.
  intros L P H. unfold fast_out in H. destruct (fast_int _ fuel lo hi _) as [o|] eqn:F; [subst o|discriminate].
  apply Rdiv_lt_0_compat; [|lra]. eapply fast_pos; [exact L| |exact F]. intros e He. cbn beta. destruct (P e He) as (u & -> & Q). exact Q.
Qed.
Lemma average_within fuel X e lo hi f t c n : tabulated X -> f <> sterile -> e <= x_Emax X -> lo < hi -> dis_average GeV tiny X (fast_out fuel) e lo hi f t c = Ok n ->
  0 < n /\ forall m M, 0 <= m -> (forall e' u, lo <= e' <= hi -> dis_single GeV tiny X e e' f t c = Ok u -> m <= u <= M) -> (1 - / 10 ^ 15) * m <= n <= (1 + / 10 ^ 15) * M.
Proof.
  intros T F L Lh H. assert (S1 : forall e', exists u, dis_single GeV tiny X e e' f t c = Ok u /\ 0 < u) by (intro; now apply single_pos).
  unfold dis_average, single_checks in H. assert (SF : is_sterile f = false) by (destruct f; (reflexivity || congruence)). rewrite SF in H.
  unfold rlt, rle in H. destruct (Rlt_dec (x_Emax X) e); [lra|]. destruct (Rle_dec e (x_Emin X)) as [Lo|Lo].
  - injection H as <-. split; [exact tiny_pos|]. intros m M Hm B. apply within; [exact Hm|]. apply (B lo); [lra|].
    unfold dis_single, single_checks. rewrite SF. unfold rlt, rle. destruct (Rlt_dec (x_Emax X) e); [lra|]. destruct (Rle_dec e (x_Emin X)); [reflexivity|lra].
  - destruct (Rlt_dec hi lo); [lra|]. destruct (Req_EM_T lo hi); [lra|].
    destruct (fast_out fuel _ lo hi) as [v| |] eqn:V; try discriminate. cbn [obind] in H. injection H as <-. split.
    + eapply fast_out_positive; [exact Lh| |exact V]. intros; apply S1.
    + intros m M Hm B. eapply fast_out_within; [exact Lh| |exact Hm| |exact V]; [intros; apply S1|exact B].
Qed.

Section Entries.
Variables Xp Xn X : xs.
Variable other : Z -> option XsTabModel.xs.
Variables tau_all tau_lep : nat -> nat -> nat -> XsTabModel.xval.
Variables cm2 cm2GeV GeVm1 : R.
Variable nt : XsTabModel.nutype.
Variables numneu ne : nat.
Variable E : nat -> R.
Variable glashow : bool.
Variable odd : nat -> XsTabModel.flavour.
Variable fuel : nat.
Variables s s' : XsTabModel.store.
Variable l : list Z.
Hypothesis made : XsTabModel.make (dis_lib GeV tiny fuel Xp Xn other) tau_all tau_lep cm2 cm2GeV GeVm1 nt numneu ne E glashow odd s = Ok (l, s').
(** the tables of target [t], the particle [a] of density matrix [r], the flavour [fl] of row [f] *)
Variables (t r f : nat) (a : bool) (fl : XsTabModel.flavour) (i : XsTabModel.current).
Hypothesis tables : nth_error [Xp; Xn] t = Some X.
Hypothesis tab : tabulated X.
Hypothesis on_grid : grid ne E (x_Emax X).
Hypothesis part : XsTabProps.particle nt r a.
Hypothesis row : (f < numneu)%nat.
Hypothesis flav : XsTabProps.flavour_of f fl.
Variables (g : flavor) (pt : nutype) (ic : current).
Hypothesis means_g : meant_flavour fl g.
Hypothesis means_p : meant_particle a pt.
Hypothesis means_c : meant_current i ic.
Notation sigma := (fun e => dis_total GeV tiny X e g pt ic).
Notation dsigma := (fun e e' => dis_single GeV tiny X e e' g pt ic).
Lemma active : fl <> XsTabModel.Sterile.
Proof. exact (proj1 (proj2 (proj2 (proj2 (meant _ _ _ _ _ _ means_g means_p means_c))))). Qed.
Lemma cur : i = XsTabModel.CC \/ i = XsTabModel.NC.
Proof. exact (proj2 (proj2 (proj2 (proj2 (meant _ _ _ _ _ _ means_g means_p means_c))))). Qed.

Lemma the_target : exists c, nth_error l t = Some c /\ dis_lib GeV tiny fuel Xp Xn other c = Some (dis_xs GeV tiny fuel X).
Proof.
  assert (Hl : l = [XsTabModel.proton; XsTabModel.neutron]).
  { pose proof made as H. unfold XsTabModel.make in H.
    change (XsTabModel.choose_targets (dis_lib GeV tiny fuel Xp Xn other)) with (@Ok (list Z) [XsTabModel.proton; XsTabModel.neutron]) in H.
    cbn [obind] in H. destruct (XsTabModel.get_cross_sections _ _ _ _ _ _ _ _ _ _ _ _ _ s); try discriminate. now injection H as <- _. }
  rewrite Hl. destruct t as [|[|k]]; cbn in tables.
  - injection tables as ->. eexists. split; reflexivity.
  - injection tables as ->. eexists. split; reflexivity.
  - destruct k; discriminate.
Qed.


(** a total of the object at a node *)
Lemma node_total_value e v : (e < ne)%nat -> XsTabProps.node_total E (dis_xs GeV tiny fuel X) fl a i e v ->
  exists q, v = XsTabModel.Num q /\ 0 < q /\ (e = 0%nat -> sigma (E 0%nat) = Ok q) /\
  forall b m M, e = S b -> 0 <= m -> (forall x u, E b <= x <= E e -> sigma x = Ok u -> m <= u <= M) -> (1 - / 10 ^ 15) * m <= q <= (1 + / 10 ^ 15) * M.
Proof.
  intros L (H0 & H1). pose proof on_grid as (P0 & Asc & Top). destruct (meant _ _ _ _ _ _ means_g means_p means_c) as (Eg & Ep & Ec & _). rewrite Eg, Ep, Ec. destruct e as [|b].
  - specialize (H0 eq_refl). cbn [dis_xs XsTabModel.x_total] in H0. apply num_ok in H0 as (q & Q & ->). exists q. split; [reflexivity|].
    destruct (total_pos X (E 0%nat) (fl_of fl) (ty_of a) (cur_of i) tab (fl_active _ active) (conj P0 (Top 0%nat L))) as (q' & Q' & W).
    rewrite Q in Q'. injection Q' as <-. split; [exact W|]. split; [auto|discriminate].
  - specialize (H1 b eq_refl). cbn [dis_xs XsTabModel.x_avtotal] in H1. apply num_ok in H1 as (q & Q & ->). exists q. split; [reflexivity|].
    unfold average_total in Q. destruct (fast_out fuel _ (E b) (E (S b))) as [w| |] eqn:W; try discriminate. cbn [obind] in Q. injection Q as <-.
    destruct (Asc b L) as [Lt _]. pose proof (grid_pos ne E _ b on_grid ltac:(lia)) as Pb. pose proof (Top (S b) L) as Tb.
    assert (Pos : forall x, E b <= x <= E (S b) -> exists u, dis_total GeV tiny X x (fl_of fl) (ty_of a) (cur_of i) = Ok u /\ 0 < u).
    { intros x Hx. apply total_pos; [exact tab|exact (fl_active _ active)|lra]. }
    split; [exact (fast_out_positive fuel (fun e => dis_total GeV tiny X e (fl_of fl) (ty_of a) (cur_of i)) _ _ _ Lt Pos W)|]. split; [discriminate|].
    intros b' m M [= <-] Hm B. exact (fast_out_within fuel (fun e => dis_total GeV tiny X e (fl_of fl) (ty_of a) (cur_of i)) _ _ _ _ _ Lt Pos Hm B W).
Qed.

(** Every total of an active flavour is positive: at the first node the cross
    section there, at every other one a mean of the cross sections in the bin
    ending there, between any bounds of them, up to one part in 10^15. *)
Theorem c102_totals : forall e, (e < ne)%nat -> exists q,
  s' (total_key i t r f e) = Some (XsTabModel.Num (q * cm2)) /\ 0 < q /\ (e = 0%nat -> sigma (E 0%nat) = Ok q) /\
  forall b m M, e = S b -> 0 <= m -> (forall x u, E b <= x <= E e -> sigma x = Ok u -> m <= u <= M) -> (1 - / 10 ^ 15) * m <= q <= (1 + / 10 ^ 15) * M.
Proof.
  intros e L. destruct the_target as (c & Hc & Hx).
  destruct (XsTabProps.c75_totals _ _ _ _ _ _ _ _ _ _ _ _ _ _ _ t c r a f fl e made Hc part row flav L) as (x & vc & vn & Lx & Tc & Tn & Sc & Sn & _).
  rewrite Hx in Lx. injection Lx as <-. destruct cur as [Ei|Ei]; rewrite <- Ei in *; cbn [total_key].
  - destruct (node_total_value e vc L Tc) as (q & -> & K). exists q. split; [|exact K]. rewrite Ei. exact Sc.
  - destruct (node_total_value e vn L Tn) as (q & -> & K). exists q. split; [|exact K]. rewrite Ei. exact Sn.
Qed.

(** Every spectrum entry below the diagonal is positive: a mean of the
    differential cross sections in the bin of the outgoing energy, in the same
    sense, over the total of the incoming one. *)
Theorem c102_spectra : 0 < cm2 -> 0 < cm2GeV -> forall e e', (e < ne)%nat -> (e' < e)%nat -> exists n d,
  s' (spectrum_key i t r f e e') = Some (XsTabModel.Num (n * cm2GeV / (d * cm2))) /\ s' (total_key i t r f e) = Some (XsTabModel.Num (d * cm2)) /\ 0 < n /\ 0 < d /\
  (e' = 0%nat -> dsigma (E e) (E 0%nat) = Ok n) /\
  forall b m M, e' = S b -> 0 <= m -> (forall x u, E b <= x <= E e' -> dsigma (E e) x = Ok u -> m <= u <= M) -> (1 - / 10 ^ 15) * m <= n <= (1 + / 10 ^ 15) * M.
Proof.
  intros C1 C2 e e' L L'. destruct the_target as (c & Hc & Hx). pose proof on_grid as (P0 & Asc & Top).
  destruct (XsTabProps.c75_spectra _ _ _ _ _ _ _ _ _ _ _ _ _ _ _ t c r a f fl e e' made Hc part row flav L L') as (x & Lx & K).
  rewrite Hx in Lx. injection Lx as <-. destruct (K i cur) as (vn & vd & v & Nd & Nt & Sv & (_ & Sp) & _).
  destruct (node_total_value e vd L Nt) as (d & -> & Dp & D0 & D1).
  destruct (meant _ _ _ _ _ _ means_g means_p means_c) as (Eg & Ep & Ec & _).
  assert (Nn : exists n, vn = XsTabModel.Num n /\ 0 < n /\ (e' = 0%nat -> dsigma (E e) (E 0%nat) = Ok n) /\
    forall b m M, e' = S b -> 0 <= m -> (forall x u, E b <= x <= E e' -> dsigma (E e) x = Ok u -> m <= u <= M) -> (1 - / 10 ^ 15) * m <= n <= (1 + / 10 ^ 15) * M).
  { destruct Nd as (N0 & N1). rewrite Eg, Ep, Ec. destruct e' as [|b].
    - specialize (N0 eq_refl). cbn [dis_xs XsTabModel.x_diff] in N0. apply num_ok in N0 as (n & Q & ->). exists n. split; [reflexivity|].
      destruct (single_pos X (E e) (E 0%nat) (fl_of fl) (ty_of a) (cur_of i) tab (fl_active _ active) (Top e L)) as (n' & Q' & W).
      rewrite Q in Q'. injection Q' as <-. split; [exact W|]. split; [auto|discriminate].
    - specialize (N1 b eq_refl). cbn [dis_xs XsTabModel.x_avdiff] in N1. apply num_ok in N1 as (n & Q & ->). exists n. split; [reflexivity|].
      destruct (Asc b ltac:(lia)) as [Lt _].
      destruct (average_within _ _ _ _ _ _ _ _ _ tab (fl_active _ active) (Top e L) Lt Q) as (W & B). split; [exact W|]. split; [discriminate|].
      intros b' m M [= <-]. apply B. }
  destruct Nn as (n & -> & Np & N0 & N1). exists n, d.
  split; [|split; [|auto]].
  - replace (spectrum_key i) with (match i with XsTabModel.CC => XsTabModel.DCC | _ => XsTabModel.DNC end) by (destruct i; reflexivity).
    rewrite (Sp (n * cm2GeV) (d * cm2)) in Sv; [|reflexivity|reflexivity|nra|nra]. destruct i; exact Sv.
  - destruct (c102_totals e L) as (q & Q & _). rewrite Q.
    destruct (XsTabProps.c75_totals _ _ _ _ _ _ _ _ _ _ _ _ _ _ _ t c r a f fl e made Hc part row flav L) as (x & wc & wn & Lx & Tc & Tn & Sc & Sn & _).
    rewrite Hx in Lx. injection Lx as <-.
    assert (U : forall w, XsTabProps.node_total E (dis_xs GeV tiny fuel X) fl a i e w -> w = XsTabModel.Num d).
    { intros w (W0 & W1). destruct Nt as (M0 & M1). destruct e as [|b]; [|]; [specialize (W0 eq_refl); specialize (M0 eq_refl)|specialize (W1 b eq_refl); specialize (M1 b eq_refl)]; congruence. }
    destruct cur as [Ei|Ei]; rewrite Ei in Q; cbn [total_key] in Q; rewrite <- Ei in *; [rewrite (U _ Tc) in Sc|rewrite (U _ Tn) in Sn]; cbn [XsTabModel.xmul] in *; congruence.
Qed.
End Entries.

(** No tables are made for energies beyond those of the cross sections. *)
Theorem c102_beyond : forall Xp Xn other tau_all tau_lep cm2 cm2GeV GeVm1 nt numneu ne E glashow odd fuel s l s' e,
  XsTabModel.make (dis_lib GeV tiny fuel Xp Xn other) tau_all tau_lep cm2 cm2GeV GeVm1 nt numneu ne E glashow odd s = Ok (l, s') ->
  (0 < numneu)%nat -> (e < ne)%nat -> E e <= x_Emax Xp /\ E e <= x_Emax Xn.
Proof.
  intros Xp Xn other tau_all tau_lep cm2 cm2GeV GeVm1 nt numneu ne E glashow odd fuel s l s' e H Ln Le.
  assert (Pa : exists a, XsTabProps.particle nt 0 a) by (destruct nt; [exists false|exists true|exists false]; cbn; auto). destruct Pa as (a & Pa).
  assert (K : forall X t, nth_error [Xp; Xn] t = Some X -> E e <= x_Emax X).
  { intros X t Ht. destruct (the_target Xp Xn X other _ _ _ _ _ _ _ _ _ _ _ fuel _ _ _ H t Ht) as (c & Hc & Hx).
    destruct (Rle_lt_dec (E e) (x_Emax X)) as [|Ab]; [assumption|]. exfalso. destruct e as [|k].
    - destruct (XsTabProps.c75_totals _ _ _ _ _ _ _ _ _ _ _ _ _ _ _ t c 0%nat a 0%nat XsTabModel.Electron 0%nat H Hc Pa Ln eq_refl Le) as (x & vc & vn & Lx & (Tc & _) & _).
      rewrite Hx in Lx. injection Lx as <-. specialize (Tc eq_refl). cbn [dis_xs XsTabModel.x_total] in Tc.
      destruct (c32_above GeV tiny (V1 0 (fun _ => 0) (fun _ _ _ _ => 0) (fun _ _ _ _ _ => 0) 0 0) X (fast_out fuel) (E 0%nat) 0 0 electron (ty_of a) CC ltac:(discriminate)) as (_ & A). destruct (A Ab) as (A1 & _).
      change (fl_of XsTabModel.Electron) with electron in Tc. change (cur_of XsTabModel.CC) with CC in Tc. rewrite A1 in Tc. discriminate.
    - destruct (XsTabProps.c75_spectra _ _ _ _ _ _ _ _ _ _ _ _ _ _ _ t c 0%nat a 0%nat XsTabModel.Electron (S k) 0%nat H Hc Pa Ln eq_refl Le ltac:(lia)) as (x & Lx & D).
      rewrite Hx in Lx. injection Lx as <-. destruct (D XsTabModel.CC (or_introl eq_refl)) as (n & d & v & (N0 & _) & _). specialize (N0 eq_refl). cbn [dis_xs XsTabModel.x_diff] in N0.
      destruct (c32_above GeV tiny (V1 0 (fun _ => 0) (fun _ _ _ _ => 0) (fun _ _ _ _ _ => 0) 0 0) X (fast_out fuel) (E (S k)) (E 0%nat) 0 electron (ty_of a) CC ltac:(discriminate)) as (_ & A). destruct (A Ab) as (_ & A1 & _).
      change (fl_of XsTabModel.Electron) with electron in N0. change (cur_of XsTabModel.CC) with CC in N0. rewrite A1 in N0. discriminate. }
  split; [apply (K _ 0%nat)|apply (K _ 1%nat)]; reflexivity.
Qed.
End DisTab.
(** The default library has protons, neutrons and electrons, by their
    particle numbers, and no other target. *)
Theorem c102_targets : forall GeV tiny fuel GF cm me mmu Xp Xn c,
  default_lib GeV tiny fuel GF cm me mmu Xp Xn c <> None <-> (c = 2212 \/ c = 2112 \/ c = 11)%Z.
Proof.
  intros. unfold default_lib, dis_lib. change XsTabModel.proton with 2212%Z. change XsTabModel.neutron with 2112%Z. change XsTabModel.electron with 11%Z.
  destruct (Z.eqb_spec c 2212) as [->|A]; [split; [auto|discriminate]|]. destruct (Z.eqb_spec c 2112) as [->|B]; [split; [auto|discriminate]|].
  destruct (Z.eqb_spec c 11) as [->|C]; [split; [auto|discriminate]|]. split; [congruence|]. intros [?|[?|?]]; contradiction.
Qed.
Print Assumptions c102_tables.
Print Assumptions c102_targets.
Print Assumptions c102_default.
Print Assumptions c102_resonance.
Print Assumptions c102_totals.
Print Assumptions c102_spectra.
Print Assumptions c102_beyond.

(** Non-vacuity: the tables of the examples of C31, energies 1, 2 and 3 of their
    1 to 100, four flavours of neutrinos and antineutrinos.  The tables of
    interactions are made, and the totals for muon antineutrinos and the
    spectra of tau neutrinos are positive. *)
Lemma ex_tabulated : tabulated ex_xs.
Proof.
  split; [cbn; lra|]. intros f F. exists ex_fd. destruct ex_has_data as (_ & H). split; [destruct f; [reflexivity..|now exfalso]|exact H].
Qed.
Definition ex_grid (e : nat) : R := INR (S e).
Lemma ex_on_grid : grid 3 ex_grid 100.
Proof.
  split; [unfold ex_grid; cbn; lra|]. split.
  - intros b L. unfold ex_grid. rewrite (S_INR (S b)). assert (P : 1 <= INR (S b) <= 2) by (destruct b as [|[|b]]; [cbn; lra|cbn; lra|lia]). split; [lra|].
    unfold too_narrow. rewrite !Rabs_right by lra. rewrite Rmax_right by lra.
    assert (T : / 2 ^ 52 <= / 1000) by (apply Rinv_le_contravar; lra). assert (T0 : 0 < / 2 ^ 52) by (apply Rinv_0_lt_compat, pow_lt; lra). intro Q. nra.
  - intros e L. unfold ex_grid. destruct e as [|[|[|e]]]; [cbn; lra..|lia].
Qed.
Example c102_case : exists fuel s', XsTabModel.make (dis_lib (1 / 10) (1 / 100) fuel ex_xs ex_xs (fun _ => None)) (fun _ _ _ => XsTabModel.Num 0) (fun _ _ _ => XsTabModel.Num 0) 3 5 1 XsTabModel.Both 4 3 ex_grid false
    (fun _ => XsTabModel.Sterile) (fun _ => None) = Ok ([XsTabModel.proton; XsTabModel.neutron], s') /\
  (exists q, s' (XsTabModel.SNC 1 1 1 2) = Some (XsTabModel.Num (q * 3)) /\ 0 < q) /\ (exists q, s' (XsTabModel.DCC 0 0 2 2 1) = Some (XsTabModel.Num q) /\ 0 < q).
Proof.
  destruct (c102_tables (1 / 10) (1 / 100) ltac:(lra) ltac:(lra) ex_xs ex_xs (fun _ => None) (fun _ _ _ => XsTabModel.Num 0) (fun _ _ _ => XsTabModel.Num 0) 3 5 1 XsTabModel.Both 4 3 ex_grid false
    (fun _ => XsTabModel.Sterile) ltac:(lra) ltac:(lra) ex_tabulated ex_tabulated ex_on_grid ex_on_grid ltac:(discriminate) ltac:(discriminate)) as (N & H).
  destruct (H N ltac:(lia) (fun _ => None)) as (s' & M). exists N, s'. split; [exact M|]. split.
  - destruct (c102_totals (1 / 10) (1 / 100) ltac:(lra) ex_xs ex_xs ex_xs _ _ _ _ _ _ _ _ _ _ _ _ _ _ _ _ M 1 1 1 true XsTabModel.Muon XsTabModel.NC eq_refl ex_tabulated ex_on_grid
      (or_intror (conj eq_refl eq_refl)) ltac:(lia) eq_refl muon antineutrino NC ltac:(cbn; auto) eq_refl ltac:(cbn; auto) 2%nat ltac:(lia)) as (q & Q & P & _). exists q. split; [exact Q|exact P].
  - destruct (c102_spectra (1 / 10) (1 / 100) ltac:(lra) ltac:(lra) ex_xs ex_xs ex_xs _ _ _ _ _ _ _ _ _ _ _ _ _ _ _ _ M 0 0 2 false XsTabModel.Tau XsTabModel.CC eq_refl ex_tabulated ex_on_grid
      (or_introl (conj eq_refl eq_refl)) ltac:(lia) eq_refl tau neutrino CC ltac:(cbn; auto) eq_refl ltac:(cbn; auto) ltac:(lra) ltac:(lra) 2%nat 1%nat ltac:(lia) ltac:(lia)) as (n & d & Q & _ & Pn & Pd & _).
    exists (n * 5 / (d * 3)). split; [exact Q|]. apply Rdiv_lt_0_compat; lra.
Qed.
(** The same with the default library and the resonance on, with a muon mass of twice the electron mass. *)
Example c102_default_case : exists fuel s', XsTabModel.make (default_lib (1 / 10) (1 / 100) fuel 1 1 1 2 ex_xs ex_xs) (fun _ _ _ => XsTabModel.Num 0) (fun _ _ _ => XsTabModel.Num 0) 3 5 1 XsTabModel.Both 4 3 ex_grid true
    (fun _ => XsTabModel.Sterile) (fun _ => None) = Ok ([XsTabModel.proton; XsTabModel.neutron], s') /\
  exists n, s' (XsTabModel.DGR 2 1) = Some (XsTabModel.Num n) /\ 0 <= n.
Proof.
  destruct (c102_default (1 / 10) (1 / 100) ltac:(lra) ltac:(lra) 1 1 1 2 ltac:(lra) ltac:(lra) ltac:(lra) ex_xs ex_xs (fun _ _ _ => XsTabModel.Num 0) (fun _ _ _ => XsTabModel.Num 0) 3 5 1 XsTabModel.Both 4 3 ex_grid true
    (fun _ => XsTabModel.Sterile) ltac:(lra) ltac:(lra) ex_tabulated ex_tabulated ex_on_grid ex_on_grid) as (N & H).
  destruct (H N ltac:(lia) (fun _ => None)) as (s' & M). exists N, s'. split; [exact M|].
  destruct (c102_resonance (1 / 10) (1 / 100) ltac:(lra) 1 1 1 2 ltac:(lra) ltac:(lra) ltac:(lra) _ _ _ _ _ _ _ _ _ _ _ _ _ _ _ _ _ 2%nat 1%nat M ltac:(discriminate) ltac:(lra) ex_on_grid ltac:(lia) ltac:(lia))
    as (n & d & _ & Q & Pd & Pn & _). eexists. split; [exact Q|]. apply Rmult_le_pos; [lra|]. apply Rlt_le, Rinv_0_lt_compat. lra.
Qed.
