(** C104: neutrinos coming out of neutral-current interactions, as counted
    with the tables of interactions of nuSQUIDS::GetCrossSections
    (src/nuSQuIDS.cpp:1045-1194, XsTabModel). *)
From Coq Require Import Reals ZArith List Arith Bool Lia Lra.
From Verif Require Import Err XsTabModel XsTabProofs XsTabProps.
From Verif Require IntProofs.
Import ListNotations.
Open Scope R_scope.
Notation rsum := IntProofs.rsum.

(** Neutral-current cross sections of one flavour for which every interaction
    gives one neutrino: [d e] is the spectrum for the energy [e] (per [u] of
    energy), [S e] its integral, which over all energies is the total [sigma e];
    [T] is the integral of the total.  The averages are those over the bin. *)
Definition one_for_one (u : R) (x : xs) (fl : flavour) (a : bool) (sigma : R -> R) : Prop := exists d S T,
  (forall e, 0 < e -> 0 < sigma e /\ x_total x e fl a NC = Ok (Num (sigma e))) /\
  (forall e e', 0 <= e' <= e -> 0 <= d e e' /\ x_diff x e e' fl a NC = Ok (Num (d e e'))) /\
  (forall e e', 0 <= e' <= e -> derivable_pt_lim (S e) e' (u * d e e')) /\
  (forall e, 0 < e -> S e e - S e 0 = sigma e) /\
  (forall e, 0 < e -> derivable_pt_lim T e (sigma e)) /\
  (forall lo hi, 0 < lo < hi -> x_avtotal x lo hi fl a NC = Ok (Num ((T hi - T lo) / (hi - lo)))) /\
  (forall e lo hi, 0 < lo < hi -> hi <= e -> x_avdiff x e lo hi fl a NC = Ok (Num ((S e hi - S e lo) / (u * (hi - lo))))).

(** positive energies in ascending order *)
Definition ascending (ne : nat) (E : nat -> R) : Prop := 0 < E 0%nat /\ forall b, (S b < ne)%nat -> E b < E (S b).
Lemma asc_le ne E i j : ascending ne E -> (i <= j)%nat -> (j < ne)%nat -> E i <= E j /\ 0 < E i.
Proof.
  intros (P & A) L. induction L as [|j L IH]; intro J.
  - split; [lra|]. clear -P A J. induction i as [|i IH]; [exact P|]. specialize (A i J). specialize (IH ltac:(lia)). lra.
  - specialize (A j J). specialize (IH ltac:(lia)). lra.
Qed.

Lemma telescope (F : nat -> R) n : rsum 1 (S n) (fun e => F e - F (e - 1)%nat) = F n - F 0%nat.
Proof.
  induction n as [|n IH]; [rewrite IntProofs.rsum_nil by lia; ring|].
  rewrite (IntProofs.rsum_split 1 (S n) (S (S n))) by lia. rewrite IH. rewrite (IntProofs.rsum_first (S n)) by lia. rewrite IntProofs.rsum_nil by lia.
  replace (S n - 1)%nat with n by lia. ring.
Qed.

(** what comes out for each neutrino of node [e], in the bins ending at the nodes below *)
Definition coming_out (E q : nat -> R) (e : nat) : R := rsum 1 e (fun e' => q e' * (E e' - E (e' - 1)%nat)).

(** At most the cross section at the node over its mean in the bin ending
    there: no more than one where the cross section at the upper end is not
    above the mean. *)
Theorem c104_bound : forall lib tau_all tau_lep cm2 GeVm1 u nt numneu ne E glashow odd s l s' t c r a f fl e x sigma,
  make lib tau_all tau_lep cm2 (u * cm2) GeVm1 nt numneu ne E glashow odd s = Ok (l, s') -> 0 < cm2 -> 0 < u ->
  nth_error l t = Some c -> lib c = Some x -> one_for_one u x fl a sigma -> ascending ne E ->
  particle nt r a -> (f < numneu)%nat -> flavour_of f fl -> (0 < e < ne)%nat ->
  exists m q, s' (SNC t r f e) = Some (Num (m * cm2)) /\ (forall e', (0 < e' < e)%nat -> s' (DNC t r f e e') = Some (Num (q e')) /\ 0 <= q e') /\
  (* the mean of the cross section in the bin *)
  (exists y, E (e - 1)%nat < y < E e /\ m = sigma y) /\
  coming_out E q e <= sigma (E e) / m /\ (sigma (E e) <= m -> coming_out E q e <= 1).
Proof.
  intros lib tau_all tau_lep cm2 GeVm1 u nt numneu ne E glashow odd s l s' t c r a f fl e x sigma H Pc Pu Ht Hx (d & S0 & T & X1 & X2 & X3 & X4 & X5 & X6 & X7) Asc Hp Hf Hfl He.
  destruct e as [|b]; [lia|]. pose proof (asc_le ne E b (S b) Asc ltac:(lia) ltac:(lia)) as [_ Pb].
  assert (Lt : E b < E (S b)) by (apply Asc; lia). assert (Pe : 0 < E (S b)) by lra.
  set (m := (T (E (S b)) - T (E b)) / (E (S b) - E b)).
  destruct (MVT_cor2 T sigma (E b) (E (S b)) Lt) as (y & My & Hy); [intros z Hz; apply X5; lra|].
  assert (Em : m = sigma y) by (unfold m; rewrite My; field; lra).
  assert (Pm : 0 < m) by (rewrite Em; apply X1; lra).
  assert (Mono : forall z w, 0 <= z <= w -> w <= E (S b) -> S0 (E (S b)) z <= S0 (E (S b)) w).
  { intros z w Hz Hw. destruct (Req_dec z w) as [->|Nz]; [lra|].
    destruct (MVT_cor2 (S0 (E (S b))) (fun v => u * d (E (S b)) v) z w ltac:(lra)) as (v & Mv & Hv); [intros v Hv; apply X3; lra|].
    assert (0 <= u * d (E (S b)) v * (w - z)). { apply Rmult_le_pos; [apply Rmult_le_pos; [lra|apply X2; lra]|lra]. } lra. }
  destruct (c75_totals _ _ _ _ _ _ _ _ _ _ _ _ _ _ _ t c r a f fl (S b) H Ht Hp Hf Hfl ltac:(lia)) as (x0 & vc & vn & Lx & _ & Tn & _ & Sn & _).
  rewrite Hx in Lx. injection Lx as <-.
  assert (Vn : vn = Num m). { destruct Tn as (_ & Tn). specialize (Tn b eq_refl). rewrite X6 in Tn by lra. now injection Tn as <-. }
  set (q := fun e' => (S0 (E (S b)) (E e') - S0 (E (S b)) (E (e' - 1)%nat)) / (E e' - E (e' - 1)%nat) / m).
  exists m, q. split; [rewrite Sn, Vn; reflexivity|].
  assert (St : forall e', (0 < e' < S b)%nat -> 0 < E (e' - 1)%nat < E e' /\ E e' <= E (S b)).
  { intros e' Le. destruct e' as [|b']; [lia|]. replace (S b' - 1)%nat with b' by lia.
    destruct (asc_le ne E b' (S b') Asc ltac:(lia) ltac:(lia)). destruct (asc_le ne E (S b') (S b) Asc ltac:(lia) ltac:(lia)).
    assert (E b' < E (S b')) by (apply Asc; lia). lra. }
  split; [|split; [exists y; replace (S b - 1)%nat with b by lia; split; [lra|exact Em]|]].
  - intros e' Le. destruct (St e' Le) as (L1 & L2). split.
    + destruct (c75_spectra _ _ _ _ _ _ _ _ _ _ _ _ _ _ _ t c r a f fl (S b) e' H Ht Hp Hf Hfl ltac:(lia) ltac:(lia)) as (x0 & Lx & K).
      rewrite Hx in Lx. injection Lx as <-. destruct (K NC (or_intror eq_refl)) as (n & dd & v & (_ & N1) & (_ & D1) & Sv & (Sp0 & Sp) & _).
      specialize (D1 b eq_refl). rewrite X6 in D1 by lra. injection D1 as <-. fold m in Sp.
      specialize (N1 (e' - 1)%nat ltac:(lia)). rewrite X7 in N1 by (try lra; lia). injection N1 as <-.
      cbn [xmul] in Sp0, Sp. pose proof (Rmult_lt_0_compat _ _ Pm Pc) as Pmc.
      set (num := (S0 (E (S b)) (E e') - S0 (E (S b)) (E (e' - 1)%nat)) / (u * (E e' - E (e' - 1)%nat)) * (u * cm2)) in *.
      assert (Q : q e' = num / (m * cm2)) by (unfold q, num; field; lra).
      cbn iota in Sv. rewrite Sv, Q. destruct (Req_dec num 0) as [Z|Z].
      * rewrite Sp0 by (rewrite Z; reflexivity). rewrite Z. do 2 f_equal. field. lra.
      * rewrite (Sp _ _ eq_refl eq_refl Z ltac:(lra)). reflexivity.
    + unfold q. pose proof (Mono (E (e' - 1)%nat) (E e') ltac:(lra) ltac:(lra)).
      apply Rmult_le_pos; [apply Rmult_le_pos; [lra|]|]; apply Rlt_le, Rinv_0_lt_compat; lra.
  - assert (Co : coming_out E q (S b) = (S0 (E (S b)) (E b) - S0 (E (S b)) (E 0%nat)) / m).
    { unfold coming_out. rewrite <- (telescope (fun e' => S0 (E (S b)) (E e')) b).
      unfold Rdiv. rewrite (Rmult_comm _ (/ m)), <- IntProofs.rsum_scal. apply IntProofs.rsum_ext. intros e' Le. destruct (St e' ltac:(lia)) as (L1 & L2). unfold q. field. lra. }
    assert (B : coming_out E q (S b) <= sigma (E (S b)) / m).
    { rewrite Co. apply Rmult_le_compat_r; [apply Rlt_le, Rinv_0_lt_compat, Pm|]. rewrite <- X4 by exact Pe.
      destruct (asc_le ne E 0 b Asc ltac:(lia) ltac:(lia)) as [_ P0].
      pose proof (Mono 0 (E 0%nat)). pose proof (Mono (E b) (E (S b))). destruct (asc_le ne E 0 (S b) Asc ltac:(lia) ltac:(lia)). lra. }
    split; [exact B|]. intro Hs. apply Rle_trans with (1 := B). apply Rmult_le_reg_r with m; [exact Pm|]. unfold Rdiv. rewrite Rmult_assoc, Rinv_l, Rmult_1_r, Rmult_1_l by lra. exact Hs.
Qed.

(** ** More than one *)

(** cross section e^2/2, spectrum e - e' below e *)
Definition soft : xs := Xs
  (fun e _ _ _ => Ok (Num (e * e / 2)))
  (fun e e' _ _ _ => Ok (Num (Rmax 0 (e - e'))))
  (fun lo hi _ _ _ => Ok (Num ((lo * lo + lo * hi + hi * hi) / 6)))
  (fun e lo hi _ _ _ => Ok (Num (Rmax 0 (e - (lo + hi) / 2)))).
Definition soft_nodes (e : nat) : R := match e with 0 => 1 | 1 => 10 | 2 => 20 | _ => 30 end.
Lemma soft_node_pos e : 0 < soft_nodes e.
Proof. destruct e as [|[|[|e]]]; cbn; lra. Qed.
Lemma soft_asc : ascending 3 soft_nodes.
Proof. split; [cbn; lra|]. intros b L. destruct b as [|[|b]]; cbn; try lra. lia. Qed.
Lemma soft_one fl a : one_for_one 1 soft fl a (fun e => e * e / 2).
Proof.
  exists (fun e e' => e - e'), (fun e x => e * x - / 2 * x ^ 2), (fun e => / 6 * e ^ 3). split; [|split; [|split; [|split; [|split; [|split]]]]].
  - intros e Pe. split; [|reflexivity]. pose proof (Rmult_lt_0_compat _ _ Pe Pe). lra.
  - intros e e' He. split; [lra|]. cbn. rewrite Rmax_right by lra. reflexivity.
  - intros e e' _. replace (1 * (e - e')) with (e * 1 - / 2 * (INR 2 * e' ^ pred 2)) by (cbn; field).
    apply (derivable_pt_lim_minus (mult_real_fct e id) (mult_real_fct (/ 2) (fun x => x ^ 2))); apply derivable_pt_lim_scal; [apply derivable_pt_lim_id|apply derivable_pt_lim_pow].
  - intros e _. field.
  - intros e _. replace (e * e / 2) with (/ 6 * (INR 3 * e ^ pred 3)) by (cbn; field).
    apply (derivable_pt_lim_scal (fun x => x ^ 3)). apply derivable_pt_lim_pow.
  - intros lo hi H. cbn. do 2 f_equal. field. lra.
  - intros e lo hi H1 H2. cbn. rewrite Rmax_right by lra. do 2 f_equal. field. lra.
Qed.
Lemma mean_pos x y : 0 < x -> 0 < y -> 0 < (x * x + x * y + y * y) / 6.
Proof.
  intros P1 P2. pose proof (Rmult_lt_0_compat _ _ P1 P1). pose proof (Rmult_lt_0_compat _ _ P1 P2). pose proof (Rmult_lt_0_compat _ _ P2 P2). lra.
Qed.
Lemma soft_sound : sound soft_nodes soft.
Proof.
  assert (Pt : forall fl a i e v, node_total soft_nodes soft fl a i e v -> exists q, v = Num q /\ 0 < q).
  { intros fl a i e v (N0 & N1). destruct e as [|b].
    - specialize (N0 eq_refl). cbn [soft x_total] in N0. injection N0 as <-. eexists. split; [reflexivity|]. cbn. lra.
    - specialize (N1 b eq_refl). cbn [soft x_avtotal] in N1. injection N1 as <-. eexists. split; [reflexivity|].
      exact (mean_pos _ _ (soft_node_pos b) (soft_node_pos (S b))). }
  split; [|split; [|split; [|split; [|split; [|split]]]]]; try (intros; eexists; reflexivity).
  - intros fl a i e v _ N. destruct (Pt _ _ _ _ _ N) as (q & -> & P). exists q. split; [reflexivity|lra].
  - intros fl a i e e' v _ (N0 & N1). destruct e' as [|b].
    + specialize (N0 eq_refl). cbn [soft x_diff] in N0. injection N0 as <-. eexists. split; [reflexivity|apply Rmax_l].
    + specialize (N1 b eq_refl). cbn [soft x_avdiff] in N1. injection N1 as <-. eexists. split; [reflexivity|apply Rmax_l].
  - intros fl a i e e' v _ N _. destruct (Pt _ _ _ _ _ N) as (q & [= <-] & P). lra.
Qed.

(** Although every interaction gives one neutrino, more than one comes out
    with the tables made: the spectrum is that of the energy of the node, at
    the upper end of its bin, and it is divided by the mean of the cross section
    in the bin.  Here 1.118 for each. *)
Theorem c104_created_refuted : exists lib E s' l x sigma,
  make lib (fun _ _ _ => Num 0) (fun _ _ _ => Num 0) 1 (1 * 1) 1 Neutrino 3 3 E false (fun _ => Sterile) (fun _ => None) = Ok (l, s') /\
  nth_error l 0 = Some proton /\ lib proton = Some x /\ (forall fl a, one_for_one 1 x fl a sigma) /\ ascending 3 E /\
  exists q, s' (DNC 0 0 0 2 1) = Some (Num q) /\ 1 < coming_out E (fun _ => q) 2.
Proof.
  destruct (c75_succeeds (fun _ => Some soft) (fun _ _ _ => Num 0) (fun _ _ _ => Num 0) 1 (1 * 1) 1 Neutrino 3 3 soft_nodes false (fun _ => Sterile) (fun _ => None)) as (l & s' & M); try lra.
  - left. cbn. split; discriminate.
  - intros c x Hc. cbn in Hc. injection Hc as <-. exact soft_sound.
  - exists (fun _ => Some soft), soft_nodes, s', l, soft, (fun e => e * e / 2). split; [exact M|].
    assert (Hl : l = [proton; neutron]) by (eapply c75_targets; [|exact M]; split; discriminate). subst l.
    split; [reflexivity|]. split; [reflexivity|]. split; [apply soft_one|]. split; [exact soft_asc|].
    destruct (c75_spectra _ _ _ _ _ _ _ _ _ _ _ _ _ _ _ 0%nat proton 0%nat false 0%nat Electron 2%nat 1%nat M eq_refl (conj eq_refl eq_refl) ltac:(lia) eq_refl ltac:(lia) ltac:(lia)) as (x & [= <-] & K).
    destruct (K NC (or_intror eq_refl)) as (n & d & v & (_ & N) & (_ & D) & Sv & (_ & Sp) & _).
    specialize (N 0%nat eq_refl). specialize (D 1%nat eq_refl). cbn [soft x_avdiff x_avtotal soft_nodes] in N, D. rewrite Rmax_right in N by lra. injection N as <-. injection D as <-.
    rewrite (Sp _ _ eq_refl eq_refl) in Sv by lra. eexists. split; [exact Sv|].
    unfold coming_out, IntProofs.rsum. cbn [Nat.sub seq map fold_right soft_nodes]. lra.
Qed.

(** The bound of [c104_bound] for the same tables: 12/7. *)
Example c104_case : exists l s' m q, make (fun _ => Some soft) (fun _ _ _ => Num 0) (fun _ _ _ => Num 0) 1 (1 * 1) 1 Neutrino 3 3 soft_nodes false (fun _ => Sterile) (fun _ => None) = Ok (l, s') /\
  s' (SNC 0 0 0 2) = Some (Num (m * 1)) /\ coming_out soft_nodes q 2 <= (20 * 20 / 2) / m /\ m < 200.
Proof.
  destruct (c75_succeeds (fun _ => Some soft) (fun _ _ _ => Num 0) (fun _ _ _ => Num 0) 1 (1 * 1) 1 Neutrino 3 3 soft_nodes false (fun _ => Sterile) (fun _ => None)) as (l & s' & M); try lra.
  - left. cbn. split; discriminate.
  - intros c x Hc. cbn in Hc. injection Hc as <-. exact soft_sound.
  - assert (Hl : l = [proton; neutron]) by (eapply c75_targets; [|exact M]; split; discriminate). subst l.
    destruct (c104_bound _ _ _ 1 _ 1 _ _ _ _ _ _ _ _ _ 0%nat proton 0%nat false 0%nat Electron 2%nat soft (fun e => e * e / 2) M ltac:(lra) ltac:(lra) eq_refl eq_refl (soft_one _ _) soft_asc
      (conj eq_refl eq_refl) ltac:(lia) eq_refl ltac:(lia)) as (m & q & A & _ & (y & Hy & Em) & B & _).
    exists [proton; neutron], s', m, q. split; [exact M|]. split; [exact A|]. split; [exact B|]. cbn in Hy. rewrite Em.
    pose proof (Rmult_le_0_lt_compat y 20 y 20 ltac:(lra) ltac:(lra) ltac:(lra) ltac:(lra)). lra.
Qed.
Print Assumptions c104_bound.
Print Assumptions c104_created_refuted.
