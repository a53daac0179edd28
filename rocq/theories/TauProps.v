(** Properties C28, C29 (tau decay spectra) and C30 (Glashow resonance). [integral f a b I], in IntegralProofs: the Riemann integral of f from
    a to b exists and is I. *)
From Coq Require Import List Arith Reals Lra Lia Psatz.
From Verif Require Import Err IntegralProofs TauModel TauProofs.
Import ListNotations.
Local Open Scope R_scope.

(** ** C28 *)
(** Every channel gives one tau neutrino: dN/dE integrates to one over the neutrino's energy, for every tau energy and, beyond the defaults,
    every polarisation and mass ratio. *)
Theorem c28_channels : forall P E, 0 < E -> 0 <= RPion P < 1 -> 0 <= RRho P < 1 -> 0 <= RA1 P < 1 ->
  integral (fun x => to_lepton P E x / E) 0 E 1 /\ integral (fun x => to_pion P E x / E) 0 E 1 /\ integral (fun x => to_rho P E x / E) 0 E 1 /\
  integral (fun x => to_a1 P E x / E) 0 E 1 /\ integral (fun x => to_hadron P E x / E) 0 E 1.
Proof.
  intros P E HE H1 H2 H3. repeat split; [now apply lepton_integral|now apply pion_integral|now apply vector_integral|now apply vector_integral|now apply hadron_integral].
Qed.
(** With the parameters of the code the branching fractions add up to one, and so does the whole spectrum. *)
Theorem c28_total : forall E, 0 < E -> integral (fun x => to_all defaults E x / E) 0 E 1.
Proof.
  intros E HE. pose proof (all_integral defaults E HE) as H. cbn [defaults RPion RRho RA1 BrLepton BrPion BrRho BrRA1 BrHadron] in H.
  match type of H with _ -> _ -> _ -> integral _ _ _ ?I => replace I with 1 in H by lra end. apply H; lra.
Qed.
(** The tables: the entry for energies E1 and E2 (in eV) is the spectrum at E2, per GeV; so the whole spectrum gives one neutrino over [0,E1]. *)
Theorem c28_table : forall E1, 0 < E1 -> integral (fun E2 => tau_entry NuAll E1 E2 / 10 ^ 9) 0 E1 1 /\ integral (fun E2 => tau_entry NuLep E1 E2 / 10 ^ 9) 0 E1 (18 / 100).
Proof.
  intros E1 HE. split.
  - apply (integral_ext _ (fun x => to_all defaults E1 x / E1)); [lra| |now apply c28_total]. intros x _. unfold tau_entry. cbv zeta. unfold GeV_eV.
    assert (E : forall P, to_all P (E1 / 10 ^ 9) (x / 10 ^ 9) = to_all P E1 x).
    { intros P. unfold to_all, to_rho, to_a1, to_lepton, to_pion, to_vector, to_hadron. cbv zeta. replace (x / 10 ^ 9 / (E1 / 10 ^ 9)) with (x / E1) by (field; lra). reflexivity. }
    rewrite E. field. lra.
  - pose proof (integral_linear _ _ 0 E1 (18 / 100) _ _ ltac:(lra) (integral_const 0 0 E1 ltac:(lra)) (lepton_integral defaults E1 HE)) as H.
    match type of H with integral _ _ _ ?I => replace I with (18 / 100) in H by field end.
    apply (integral_ext _ (fun x => 0 + 18 / 100 * (to_lepton defaults E1 x / E1))); [lra| |exact H]. intros x _. unfold tau_entry. cbv zeta. unfold GeV_eV.
    assert (E : to_lepton defaults (E1 / 10 ^ 9) (x / 10 ^ 9) = to_lepton defaults E1 x).
    { unfold to_lepton. cbv zeta. replace (x / 10 ^ 9 / (E1 / 10 ^ 9)) with (x / E1) by (field; lra). reflexivity. }
    rewrite E. cbn [BrLepton defaults]. field. lra.
Qed.

(** ** C29 *)
Theorem c29_nonnegative : forall E x, 0 < E -> 0 <= x <= E ->
  0 <= to_lepton defaults E x /\ 0 <= to_pion defaults E x /\ 0 <= to_rho defaults E x /\ 0 <= to_a1 defaults E x /\ 0 <= to_hadron defaults E x /\ 0 <= to_all defaults E x.
Proof.
  intros E x HE Hx. repeat split; [now apply lepton_nonneg|apply pion_nonneg; lra| | |apply hadron_nonneg|now apply all_nonneg].
  - apply vector_nonneg; cbn [defaults RRho]; lra.
  - apply vector_nonneg; cbn [defaults RA1]; lra.
Qed.
(** The other two tables are the same spectra weighted with the share of the energy. *)
Theorem c28_weighted_tables : forall E1 E2, 0 < E1 ->
  tau_entry LeAll E1 E2 = E2 / E1 * tau_entry NuAll E1 E2 /\ tau_entry LeLep E1 E2 = E2 / E1 * tau_entry NuLep E1 E2.
Proof.
  intros E1 E2 HE. unfold tau_entry. cbv zeta. unfold GeV_eV. split; field; lra.
Qed.
Print Assumptions c28_weighted_tables.
Example c28_weighted_case : tau_entry LeAll 2 1 = 1 / 2 * tau_entry NuAll 2 1.
Proof. exact (proj1 (c28_weighted_tables 2 1 ltac:(lra))). Qed.
(** Table entries at or below the tau's energy are non-negative. *)
Theorem c29_entries : forall w E1 E2, 0 < E1 -> 0 <= E2 <= E1 -> 0 <= tau_entry w E1 E2.
Proof.
  intros w E1 E2 H1 H2. unfold tau_entry. cbv zeta. assert (Hg : 0 < / GeV_eV) by (apply Rinv_0_lt_compat, pow_lt; lra).
  assert (Ha : 0 < E1 / GeV_eV) by now apply Rmult_lt_0_compat.
  assert (Hb : 0 <= E2 / GeV_eV <= E1 / GeV_eV) by (split; [apply Rmult_le_pos; lra|apply Rmult_le_compat_r; lra]).
  pose proof (all_nonneg _ _ Ha Hb) as A. pose proof (lepton_nonneg _ _ Ha Hb) as B. cbn [defaults BrLepton]. set (e1 := E1 / GeV_eV) in *. set (e2 := E2 / GeV_eV) in *.
  assert (0 < / e1) by now apply Rinv_0_lt_compat. assert (0 < / (e1 * e1)) by (apply Rinv_0_lt_compat, Rmult_lt_0_compat; assumption).
  destruct w; repeat apply Rmult_le_pos; lra.
Qed.
(** Above it the leptonic entries are negative: the leptonic channel has no cut at the kinematic limit. *)
Theorem c29_above_refuted : forall E1 E2, 0 < E1 -> E1 < E2 -> tau_entry NuLep E1 E2 < 0 /\ tau_entry LeLep E1 E2 < 0.
Proof.
  intros E1 E2 H1 H2. unfold tau_entry. cbv zeta. assert (Hg : 0 < / GeV_eV) by (apply Rinv_0_lt_compat, pow_lt; lra).
  assert (Ha : 0 < E1 / GeV_eV) by now apply Rmult_lt_0_compat. assert (Hb : E1 / GeV_eV < E2 / GeV_eV) by (apply Rmult_lt_compat_r; lra).
  set (e1 := E1 / GeV_eV) in *. set (e2 := E2 / GeV_eV) in *. cbn [defaults BrLepton].
  assert (Hz : 1 < (e2 / e1) ^ 3).
  { assert (1 < e2 / e1). { apply Rmult_lt_reg_r with e1; [lra|]. unfold Rdiv. rewrite Rmult_assoc, Rinv_l; lra. }
    replace 1 with (1 ^ 3) by ring. apply pow_incrst_1; [lia|lra|lra|lra] || (assert (1 < (e2 / e1) * (e2 / e1)) by nra; cbn [pow]; nra). }
  assert (Hn : to_lepton defaults e1 e2 < 0) by (rewrite lepton_formula by lra; lra).
  assert (Hi : 0 < / e1) by now apply Rinv_0_lt_compat. assert (Hj : 0 < / (e1 * e1)) by (apply Rinv_0_lt_compat, Rmult_lt_0_compat; assumption).
  split; unfold Rdiv.
  - assert (0 < - (18 * / 100 * to_lepton defaults e1 e2) * / e1); [apply Rmult_lt_0_compat; lra|lra].
  - assert (0 < - (18 * / 100 * to_lepton defaults e1 e2 * e2)) by nra.
    assert (0 < - (18 * / 100 * to_lepton defaults e1 e2 * e2) * / (e1 * e1)); [apply Rmult_lt_0_compat; lra|lra].
Qed.
(** Lookups: with valid type, exactly the energy indices in the range are accepted. *)
Theorem c29_lookup : forall E w i j type, (type < 2)%nat ->
  ((i < List.length E)%nat /\ (j < List.length E)%nat -> tau_lookup E w i j type = Ok (tau_entry w (nth i E 0) (nth j E 0))) /\
  (~ ((i < List.length E)%nat /\ (j < List.length E)%nat) -> tau_lookup E w i j type = Throw RuntimeError).
Proof.
  intros E w i j type Ht. unfold tau_lookup. destruct (Nat.leb_spec (List.length E) i), (Nat.leb_spec (List.length E) j); cbn [orb]; (split; intros H1; [|try reflexivity]); try lia.
  destruct (Nat.ltb_spec type 2); [reflexivity|lia].
Qed.
(** The particle type is not checked: from 2 on the lookup reads past the table. *)
Theorem c29_type_refuted : forall E w i j type, (i < List.length E)%nat -> (j < List.length E)%nat -> (2 <= type)%nat -> tau_lookup E w i j type = UB.
Proof.
  intros E w i j type Hi Hj Ht. unfold tau_lookup. destruct (Nat.leb_spec (List.length E) i), (Nat.leb_spec (List.length E) j); try lia. cbn [orb].
  destruct (Nat.ltb_spec type 2); [lia|reflexivity].
Qed.

(** ** C30 *)
Theorem c30_only_resonance : forall GF cm me mmu GeV E E2 f t c, ~ (f = electron /\ t = antineutrino /\ c = GR) ->
  gr_total GF cm me mmu GeV E f t c = 0 /\ gr_single GF cm me mmu GeV E E2 f t c = 0.
Proof. intros. unfold gr_total, gr_single. destruct f, t, c; cbn [is_resonance]; try (split; reflexivity). exfalso. auto. Qed.
(** The differential cross section per GeV, integrated over the outgoing energy in GeV, is the muon branching fraction times the total; nothing
    is above the incoming energy. *)
Theorem c30_integral : forall GF cm me mmu GeV E Emax, 0 < GeV -> 0 < E <= Emax ->
  integral (fun E2 => gr_single GF cm me mmu GeV E E2 electron antineutrino GR / GeV) 0 Emax (branching muon * gr_total GF cm me mmu GeV E electron antineutrino GR).
Proof.
  intros GF cm me mmu GeV E Emax Hg HE. set (T := gr_total GF cm me mmu GeV E electron antineutrino GR).
  replace (branching muon * T) with (branching muon * T + 0 * (Emax - E)) by ring. apply (integral_chasles _ 0 E Emax); [lra|lra| |].
  - apply (integral_ext _ (cubic 0 0 (B_Muon * 3 * T / E ^ 3) 0)); [lra| |].
    + intros x Hx. unfold gr_single. cbn [is_resonance]. destruct Rlt_dec; [lra|]. cbv zeta. fold T. unfold cubic. field. lra.
    + pose proof (cubic_integral 0 0 (B_Muon * 3 * T / E ^ 3) 0 0 E ltac:(lra)) as H. match type of H with integral _ _ _ ?I => replace I with (branching muon * T) in H by (cbn [branching]; field; lra) end. exact H.
  - apply (integral_ext _ (fun _ => 0)); [lra| |apply integral_const; lra]. intros x Hx. unfold gr_single. cbn [is_resonance]. destruct Rlt_dec; [field; lra|lra].
Qed.
Theorem c30_nonnegative : forall GF cm me mmu GeV E E2 f t c, 0 < me -> 0 < GeV -> 0 < E ->
  0 <= gr_total GF cm me mmu GeV E f t c /\ 0 <= gr_single GF cm me mmu GeV E E2 f t c.
Proof.
  intros GF cm me mmu GeV E E2 f t c Hm Hg HE.
  assert (HT : forall f t c, 0 <= gr_total GF cm me mmu GeV E f t c).
  { intros f' t' c'. unfold gr_total. destruct is_resonance; [|lra].
    assert (Hf : 0 <= fermi_scale GF cm me). { unfold fermi_scale. pose proof PI_RGT_0. assert (0 < / PI) by now apply Rinv_0_lt_compat. apply Rmult_le_pos; [apply Rmult_le_pos; [apply pow2_ge_0|lra]|lra]. }
    assert (Hw : 0 < (W_total GeV / M_W GeV) ^ 2). { unfold W_total, M_W. replace (2085 / 1000 * GeV / (80385 / 1000 * GeV)) with (2085 / 80385) by (field; lra). lra. }
    pose proof (pow2_ge_0 (1 - 2 * me * E / (M_W GeV * M_W GeV))) as Hq. assert (Hd : 0 < / ((1 - 2 * me * E / (M_W GeV * M_W GeV)) ^ 2 + (W_total GeV / M_W GeV) ^ 2)) by (apply Rinv_0_lt_compat; lra).
    pose proof (pow2_ge_0 (1 - (mmu * mmu - me * me) / (2 * me * E))). assert (0 < / B_Muon) by (unfold B_Muon; lra). apply Rmult_le_pos; [|lra]. apply Rmult_le_pos; [|lra]. apply Rmult_le_pos; [|lra].
    apply Rmult_le_pos; [|assumption]. apply Rmult_le_pos; lra. }
  split; [apply HT|]. unfold gr_single. destruct is_resonance; [|lra]. destruct Rlt_dec; [lra|]. cbv zeta. pose proof (HT f t c). assert (0 < / E) by now apply Rinv_0_lt_compat.
  pose proof (Rle_0_sqr (E2 / E)) as Hs. unfold Rsqr in Hs. apply Rmult_le_pos; [|lra]. apply Rmult_le_pos; [|lra]. apply Rmult_le_pos; [|exact Hs].
  apply Rmult_le_pos; [unfold B_Muon; lra|assumption].
Qed.
(** The decay fractions of the W cover everything, up to 13 parts in 10000. *)
Theorem c30_branching : branching electron + branching muon + branching tau + B_Hadronic = 10013 / 10000.
Proof. cbn [branching]. unfold B_Electron, B_Muon, B_Tau, B_Hadronic. lra. Qed.

(** ** Cases *)
Example c28_case : 0 <= RPion defaults < 1 /\ 0 <= RRho defaults < 1 /\ 0 <= RA1 defaults < 1 /\ 0 < 100.
Proof. cbn [defaults RPion RRho RA1]. lra. Qed.
Example c28_value : to_lepton defaults 2 1 = 7 / 6 /\ to_hadron defaults 10 1 = 10 / 3.
Proof. split; [rewrite lepton_formula by lra; lra|]. unfold to_hadron. cbv zeta. rewrite positive_true by lra. cbn [polar defaults]. field. Qed.
Example c29_case : tau_lookup [1; 2; 3] NuLep 1 2 0 = Ok (tau_entry NuLep 2 3) /\ tau_entry NuLep 2 3 < 0 /\ tau_lookup [1; 2; 3] NuAll 3 0 0 = Throw RuntimeError.
Proof. split; [reflexivity|]. split; [apply c29_above_refuted; lra|reflexivity]. Qed.
Example c30_case : 0 < gr_total 1 1 1 2 1 3 electron antineutrino GR.
Proof.
  unfold gr_total. cbn [is_resonance]. unfold fermi_scale, M_W, W_total, B_Muon. pose proof PI_RGT_0. assert (0 < / PI) by now apply Rinv_0_lt_compat.
  assert (Hd : 0 < (1 - 2 * 1 * 3 / (80385 / 1000 * 1 * (80385 / 1000 * 1))) ^ 2 + (2085 / 1000 * 1 / (80385 / 1000 * 1)) ^ 2) by lra.
  apply Rinv_0_lt_compat in Hd. unfold Rdiv at 1 2 3. repeat apply Rmult_lt_0_compat; try lra.
Qed.

Print Assumptions c28_channels. Print Assumptions c28_total. Print Assumptions c28_table. Print Assumptions c29_nonnegative. Print Assumptions c29_entries.
Print Assumptions c29_above_refuted. Print Assumptions c29_lookup. Print Assumptions c29_type_refuted. Print Assumptions c30_only_resonance. Print Assumptions c30_integral.
Print Assumptions c30_nonnegative. Print Assumptions c30_branching.
