(** Proofs about TauModel. *)
From Coq Require Import List Arith Reals Lra Lia Psatz.
From Verif Require Import Err IntegralProofs TauModel.
Import ListNotations.
Local Open Scope R_scope.

(** Polynomials of degree three and their integrals. *)
Definition cubic (a b c d x : R) : R := a + b * x + c * x ^ 2 + d * x ^ 3.
Lemma cubic_continuous a b c d : continuity (cubic a b c d).
Proof. unfold cubic. intros x. reg. Qed.
Lemma cubic_integral a b c d u v : u <= v ->
  integral (cubic a b c d) u v (a * (v - u) + b * (v ^ 2 - u ^ 2) / 2 + c * (v ^ 3 - u ^ 3) / 3 + d * (v ^ 4 - u ^ 4) / 4).
Proof.
  intros Huv. pose (F := fun x => a * x + (b / 2) * x ^ 2 + (c / 3) * x ^ 3 + (d / 4) * x ^ 4).
  replace (a * (v - u) + b * (v ^ 2 - u ^ 2) / 2 + c * (v ^ 3 - u ^ 3) / 3 + d * (v ^ 4 - u ^ 4) / 4) with (F v - F u) by (unfold F; field).
  apply (integral_antiderivative F); [exact Huv| |apply cubic_continuous]. intros x.
  replace (cubic a b c d x) with (((a * 1 + (b / 2) * (INR 2 * x ^ 1)) + (c / 3) * (INR 3 * x ^ 2)) + (d / 4) * (INR 4 * x ^ 3)) by (unfold cubic; cbn [INR]; field).
  unfold F. apply (derivable_pt_lim_plus (fun x => a * x + b / 2 * x ^ 2 + c / 3 * x ^ 3) (fun x => d / 4 * x ^ 4)).
  apply (derivable_pt_lim_plus (fun x => a * x + b / 2 * x ^ 2) (fun x => c / 3 * x ^ 3)). apply (derivable_pt_lim_plus (fun x => a * x) (fun x => b / 2 * x ^ 2)).
  - apply (derivable_pt_lim_scal id). apply derivable_pt_lim_id.
  - apply (derivable_pt_lim_scal (fun x => x ^ 2)). apply (derivable_pt_lim_pow x 2).
  - apply (derivable_pt_lim_scal (fun x => x ^ 3)). apply (derivable_pt_lim_pow x 3).
  - apply (derivable_pt_lim_scal (fun x => x ^ 4)). apply (derivable_pt_lim_pow x 4).
Qed.
Lemma positive_true x : 0 < x -> positive x = true.
Proof. intros. unfold positive. destruct Rlt_dec; [reflexivity|contradiction]. Qed.
Lemma positive_false x : x <= 0 -> positive x = false.
Proof. intros. unfold positive. destruct Rlt_dec; [lra|reflexivity]. Qed.

(** A function that is a polynomial below a cut and zero from there to the end. *)
Lemma cut_integral f E k a b c d I : 0 <= k <= E -> (forall x, x < k -> f x = cubic a b c d x) -> (forall x, k <= x -> f x = 0) ->
  I = a * k + b * k ^ 2 / 2 + c * k ^ 3 / 3 + d * k ^ 4 / 4 -> integral f 0 E I.
Proof.
  intros Hk H1 H2 ->. replace (a * k + b * k ^ 2 / 2 + c * k ^ 3 / 3 + d * k ^ 4 / 4) with
    ((a * (k - 0) + b * (k ^ 2 - 0 ^ 2) / 2 + c * (k ^ 3 - 0 ^ 3) / 3 + d * (k ^ 4 - 0 ^ 4) / 4) + 0 * (E - k)) by field.
  apply (integral_chasles f 0 k E); [lra|lra| |].
  - apply (integral_ext f (cubic a b c d)); [lra| |apply cubic_integral; lra]. intros x Hx. apply H1. lra.
  - apply (integral_ext f (fun _ => 0)); [lra| |apply integral_const; lra]. intros x Hx. apply H2. lra.
Qed.

Section D.
Variable P : tau_params.
Variable E : R.
Hypothesis HE : 0 < E.

Lemma lepton_integral : integral (fun x => to_lepton P E x / E) 0 E 1.
Proof.
  apply (integral_ext _ (cubic ((5 / 3 + polar P * (1 / 3)) / E) 0 ((- 3 - 3 * polar P) / E ^ 3) ((4 / 3 + polar P * (8 / 3)) / E ^ 4))); [lra| |].
  - intros x _. unfold to_lepton, cubic. cbv zeta. field. lra.
  - pose proof (cubic_integral ((5 / 3 + polar P * (1 / 3)) / E) 0 ((- 3 - 3 * polar P) / E ^ 3) ((4 / 3 + polar P * (8 / 3)) / E ^ 4) 0 E ltac:(lra)) as H.
    match type of H with integral _ _ _ ?I => replace I with 1 in H by (field; lra) end. exact H.
Qed.
Lemma cut_at r x : 0 < 1 - r - x / E <-> x < (1 - r) * E.
Proof.
  assert (0 < / E) by now apply Rinv_0_lt_compat. split; intros H0.
  - apply Rmult_lt_reg_r with (/ E); [assumption|]. rewrite Rmult_assoc, Rinv_r by lra. unfold Rdiv in H0. lra.
  - assert (x * / E < (1 - r) * E * / E) by now apply Rmult_lt_compat_r. rewrite Rmult_assoc, Rinv_r in H1 by lra. unfold Rdiv. lra.
Qed.
Lemma pion_integral : 0 <= RPion P < 1 -> integral (fun x => to_pion P E x / E) 0 E 1.
Proof.
  intros Hr. set (r := RPion P) in *.
  apply (cut_integral _ E ((1 - r) * E) ((1 / (1 - r) + polar P * ((1 - r) / (1 - r) ^ 2)) / E) (- 2 * polar P / (1 - r) ^ 2 / E ^ 2) 0 0); [nra| | |field; lra].
  - intros x Hx. unfold to_pion. cbv zeta. fold r. rewrite positive_true by now apply cut_at. unfold cubic. field. lra.
  - intros x Hx. unfold to_pion. cbv zeta. fold r. rewrite positive_false; [field; lra|]. apply Rnot_lt_le. rewrite cut_at. lra.
Qed.
Lemma vector_integral r : 0 <= r < 1 -> integral (fun x => to_vector P r E x / E) 0 E 1.
Proof.
  intros Hr. set (k := (1 - 2 * r) / (1 + 2 * r)).
  apply (cut_integral _ E ((1 - r) * E) ((1 / (1 - r) + polar P * k) / E) (- 2 * polar P * k / (1 - r) / E ^ 2) 0 0); [nra| | |field; lra].
  - intros x Hx. unfold to_vector. cbv zeta. fold k. rewrite positive_true by now apply cut_at. unfold cubic. field. lra.
  - intros x Hx. unfold to_vector. cbv zeta. fold k. rewrite positive_false; [field; lra|]. apply Rnot_lt_le. rewrite cut_at. lra.
Qed.
Lemma hadron_integral : integral (fun x => to_hadron P E x / E) 0 E 1.
Proof.
  apply (cut_integral _ E (3 / 10 * E) (10 / 3 / E) 0 0 0); [lra| | |field; lra].
  - intros x Hx. unfold to_hadron. cbv zeta. rewrite positive_true; [unfold cubic; field; lra|]. replace (3 / 10 - x / E) with (1 - 7 / 10 - x / E) by lra. apply cut_at. lra.
  - intros x Hx. unfold to_hadron. cbv zeta. rewrite positive_false; [field; lra|]. apply Rnot_lt_le. replace (3 / 10 - x / E) with (1 - 7 / 10 - x / E) by lra. rewrite cut_at. lra.
Qed.
Lemma all_integral : 0 <= RPion P < 1 -> 0 <= RRho P < 1 -> 0 <= RA1 P < 1 ->
  integral (fun x => to_all P E x / E) 0 E (2 * BrLepton P + BrPion P + BrRho P + BrRA1 P + BrHadron P).
Proof.
  intros H1 H2 H3.
  assert (H := integral_linear _ _ 0 E (BrHadron P) _ _ ltac:(lra) (integral_linear _ _ 0 E (BrRA1 P) _ _ ltac:(lra) (integral_linear _ _ 0 E (BrRho P) _ _ ltac:(lra)
    (integral_linear _ _ 0 E (BrPion P) _ _ ltac:(lra) (integral_linear _ _ 0 E (2 * BrLepton P) _ _ ltac:(lra) (integral_const 0 0 E ltac:(lra)) lepton_integral)
     (pion_integral H1)) (vector_integral _ H2)) (vector_integral _ H3)) hadron_integral).
  eapply integral_ext; [lra| |replace (2 * BrLepton P + BrPion P + BrRho P + BrRA1 P + BrHadron P) with
    (0 * (E - 0) + 2 * BrLepton P * 1 + BrPion P * 1 + BrRho P * 1 + BrRA1 P * 1 + BrHadron P * 1) by ring; exact H].
  intros x _. unfold to_all, to_rho, to_a1. cbv beta. field. lra.
Qed.
End D.

(** ** Sign *)
Lemma lepton_formula E x : E <> 0 -> to_lepton defaults E x = 4 / 3 * (1 - (x / E) ^ 3).
Proof. intros H. unfold to_lepton. cbv zeta. cbn [polar defaults]. field. exact H. Qed.
Lemma cube_le z : 0 <= z <= 1 -> z ^ 3 <= 1.
Proof. intros H. replace 1 with (1 ^ 3) by ring. apply pow_incr. exact H. Qed.
Lemma lepton_nonneg E x : 0 < E -> 0 <= x <= E -> 0 <= to_lepton defaults E x.
Proof.
  intros HE Hx. rewrite lepton_formula by lra. pose proof (cube_le (x / E)) as Hc.
  assert (0 <= x / E <= 1).
  { assert (0 < / E) by now apply Rinv_0_lt_compat. split; [apply Rmult_le_pos; lra|]. apply Rmult_le_reg_r with E; [lra|]. unfold Rdiv. rewrite Rmult_assoc, Rinv_l; lra. }
  specialize (Hc H). lra.
Qed.
Lemma ratio_nonneg E x : 0 < E -> 0 <= x -> 0 <= x / E.
Proof. intros HE Hx. apply Rmult_le_pos; [exact Hx|]. left. now apply Rinv_0_lt_compat. Qed.
Lemma positive_cases x : (positive x = true /\ 0 < x) \/ (positive x = false /\ x <= 0).
Proof. unfold positive. destruct Rlt_dec; [left|right]; split; trivial. lra. Qed.
Lemma pion_nonneg E x : 0 < E -> 0 <= x -> 0 <= to_pion defaults E x.
Proof.
  intros HE Hx. pose proof (ratio_nonneg _ _ HE Hx) as Hz. unfold to_pion. cbv zeta. cbn [polar defaults RPion]. set (z := x / E) in *. set (r := 7856 / 100000 * (7856 / 100000)).
  destruct (positive_cases (1 - r - z)) as [[-> Hp]|[-> Hp]]; [|lra].
  assert (Hr : 0 < 1 - r) by (unfold r; lra). replace (1 / (1 - r) + -1 * (- (2 * z - 1 + r) / (1 - r) ^ 2)) with (2 * z / (1 - r) ^ 2) by (field; lra).
  apply Rmult_le_pos; [lra|]. left. apply Rinv_0_lt_compat. nra.
Qed.
Lemma vector_nonneg r E x : 0 <= r < 1 -> 0 < E -> 0 <= x -> 0 <= to_vector defaults r E x.
Proof.
  intros Hr HE Hx. pose proof (ratio_nonneg _ _ HE Hx) as Hz. unfold to_vector. cbv zeta. cbn [polar defaults]. set (z := x / E) in *.
  destruct (positive_cases (1 - r - z)) as [[-> Hp]|[-> Hp]]; [|lra].
  replace (1 / (1 - r) + -1 * (- ((2 * z - 1 + r) / (1 - r)) * ((1 - 2 * r) / (1 + 2 * r)))) with
    (((1 + 2 * r) + (2 * z - 1 + r) * (1 - 2 * r)) / ((1 - r) * (1 + 2 * r))) by (field; lra).
  apply Rmult_le_pos; [|left; apply Rinv_0_lt_compat; nra].
  assert (Rabs ((2 * z - 1 + r) * (1 - 2 * r)) <= 1 * (1 + 2 * r)).
  { rewrite Rabs_mult. apply Rmult_le_compat; try apply Rabs_pos; unfold Rabs; destruct Rcase_abs; lra. }
  unfold Rabs in H. destruct (Rcase_abs ((2 * z - 1 + r) * (1 - 2 * r))); lra.
Qed.
Lemma hadron_nonneg E x : 0 <= to_hadron defaults E x.
Proof. unfold to_hadron. cbv zeta. destruct (positive _); lra. Qed.
Lemma all_nonneg E x : 0 < E -> 0 <= x <= E -> 0 <= to_all defaults E x.
Proof.
  intros HE Hx. unfold to_all, to_rho, to_a1. cbn [defaults BrLepton BrPion BrRho BrRA1 BrHadron RRho RA1].
  pose proof (lepton_nonneg E x HE Hx). pose proof (pion_nonneg E x HE ltac:(lra)). pose proof (hadron_nonneg E x).
  pose proof (vector_nonneg (43335 / 100000 * (43335 / 100000)) E x ltac:(lra) HE ltac:(lra)). pose proof (vector_nonneg (70913 / 100000 * (70913 / 100000)) E x ltac:(lra) HE ltac:(lra)). lra.
Qed.
