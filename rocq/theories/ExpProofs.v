(** Linear equations with constant coefficients have solutions: the exponential series. *)
From Coq Require Import Reals List Arith Bool Lia Lra.
From Coq Require Import Ranalysis5 PSeries_reg.
Import ListNotations.
Local Open Scope R_scope.

(** ** One series *)
Section Series.
Variable a : nat -> R.
Variables C K : R.
Hypothesis K0 : 0 <= K.
Hypothesis B : forall k, Rabs (a k) <= C * K ^ k.

Definition term (k : nat) (t : R) : R := a k * (/ INR (fact k) * t ^ k).

Lemma term_bound r k t : 0 <= r -> Rabs t <= r -> Rabs (term k t) <= C * (/ INR (fact k) * (K * r) ^ k).
Proof.
  intros R0 T. unfold term. rewrite !Rabs_mult, <- RPow_abs, Rpow_mult_distr.
  assert (F : 0 < / INR (fact k)) by apply Rinv_0_lt_compat, INR_fact_lt_0.
  rewrite (Rabs_pos_eq (/ INR (fact k))) by lra.
  replace (C * (/ INR (fact k) * (K ^ k * r ^ k))) with ((C * K ^ k) * (/ INR (fact k) * r ^ k)) by ring.
  apply Rmult_le_compat; [apply Rabs_pos| |apply B|].
  - apply Rmult_le_pos; [lra|]. apply pow_le, Rabs_pos.
  - apply Rmult_le_compat_l; [lra|]. apply pow_incr. split; [apply Rabs_pos|exact T].
Qed.

Lemma term_cvn : CVN_R term.
Proof.
  intros [r R0]. exists (fun k => C * (/ INR (fact k) * (K * r) ^ k)). exists (C * exp (K * r)). split.
  - assert (C0 : 0 <= C) by (pose proof (B 0); pose proof (Rabs_pos (a 0)); cbn in *; lra).
    assert (E : Un_cv (fun n => sum_f_R0 (fun i => / INR (fact i) * (K * r) ^ i) n) (exp (K * r))).
    { unfold exp. destruct (exist_exp (K * r)) as (l & X). exact X. }
    intros eps Eps. destruct (E (eps / (C + 1))) as (N & HN); [apply Rdiv_lt_0_compat; lra|]. exists N. intros n Hn. specialize (HN n Hn).
    assert (S : sum_f_R0 (fun k => Rabs (C * (/ INR (fact k) * (K * r) ^ k))) n = C * sum_f_R0 (fun i => / INR (fact i) * (K * r) ^ i) n).
    { rewrite scal_sum. apply sum_eq. intros i _. rewrite Rabs_pos_eq; [ring|]. apply Rmult_le_pos; [exact C0|]. apply Rmult_le_pos.
      - left. apply Rinv_0_lt_compat, INR_fact_lt_0.
      - apply pow_le, Rmult_le_pos; [exact K0|cbn; lra]. }
    rewrite S. unfold R_dist in *. rewrite <- Rmult_minus_distr_l, Rabs_mult, (Rabs_pos_eq C C0).
    apply Rle_lt_trans with ((C + 1) * (eps / (C + 1)) - 0 - (Rabs (sum_f_R0 (fun i => / INR (fact i) * (K * r) ^ i) n - exp (K * r)) * 0 + (eps / (C + 1)) * 1)).
    + pose proof (Rabs_pos (sum_f_R0 (fun i => / INR (fact i) * (K * r) ^ i) n - exp (K * r))).
      set (d := Rabs _) in *. set (q := eps / (C + 1)) in *. nra.
    + assert (P : 0 < eps / (C + 1)) by (apply Rdiv_lt_0_compat; lra). replace ((C + 1) * (eps / (C + 1))) with eps by (field; lra). lra.
  - intros n y Y. unfold Boule in Y. rewrite Rminus_0_r in Y. apply term_bound; [cbn in *; lra|cbn in *; lra].
Defined.

Lemma term_cvs : forall t, { l : R | Un_cv (fun N => SP term N t) l }.
Proof. exact (CVN_R_CVS term term_cvn). Defined.
Definition series (t : R) : R := SFL term term_cvs t.

Lemma series_cv t : Un_cv (fun N => SP term N t) (series t).
Proof. unfold series, SFL. destruct (term_cvs t) as (l & X). exact X. Qed.
Lemma term_continuous k : continuity (term k).
Proof. unfold term. apply continuity_mult; [apply continuity_const; intros ? ?; reflexivity|]. apply continuity_mult; [apply continuity_const; intros ? ?; reflexivity|]. apply derivable_continuous, derivable_pow. Qed.
Lemma series_continuous : continuity series.
Proof. unfold series. apply SFL_continuity; [exact term_cvn|exact term_continuous]. Qed.
Lemma series_0 : series 0 = a 0.
Proof.
  apply (UL_sequence (fun N => SP term N 0)); [apply series_cv|]. intros eps Eps. exists 0%nat. intros n _.
  replace (SP term n 0) with (a 0); [unfold R_dist; rewrite Rminus_diag_eq by reflexivity; rewrite Rabs_R0; exact Eps|].
  unfold SP. induction n as [|n IH]; cbn [sum_f_R0]; [unfold term; cbn; field|]. rewrite <- IH. unfold term. rewrite pow_i by lia. ring.
Qed.
Lemma series_cvu (r : posreal) : CVU (SP term) series 0 r.
Proof. apply CVN_CVU. apply term_cvn. Qed.
End Series.

(** the derivative: the series of the shifted coefficients *)
Section Derivative.
Variable a : nat -> R.
Variables C K : R.
Hypothesis K0 : 0 <= K.
Hypothesis B : forall k, Rabs (a k) <= C * K ^ k.
Lemma shift_bound k : Rabs (a (S k)) <= C * K * K ^ k.
Proof. replace (C * K * K ^ k) with (C * K ^ S k) by (cbn; ring). apply B. Qed.

Lemma term_derivative k t : derivable_pt_lim (term a (S k)) t (term (fun k => a (S k)) k t).
Proof.
  unfold term. replace (a (S k) * (/ INR (fact k) * t ^ k)) with (a (S k) * (/ INR (fact (S k)) * (INR (S k) * t ^ k))).
  - apply derivable_pt_lim_scal, derivable_pt_lim_scal. apply (derivable_pt_lim_pow t (S k)).
  - f_equal. rewrite fact_simpl, mult_INR. field. split; [apply INR_fact_neq_0|apply not_0_INR; lia].
Qed.
Lemma partial_derivative n t : derivable_pt_lim (SP (term a) (S n)) t (SP (term (fun k => a (S k))) n t).
Proof.
  induction n as [|n IH].
  - unfold SP. cbn [sum_f_R0]. replace (term (fun k => a (S k)) 0 t) with (0 + term (fun k => a (S k)) 0 t) by ring.
    apply (derivable_pt_lim_plus (fun t => term a 0 t)); [|apply term_derivative].
    unfold term. replace 0 with (a 0%nat * 0) by ring. apply (derivable_pt_lim_scal (fun t => / INR (fact 0) * t ^ 0)).
    replace 0 with (/ INR (fact 0) * 0) by ring. apply (derivable_pt_lim_scal (fun t => t ^ 0)). apply derivable_pt_lim_const.
  - change (SP (term a) (S (S n))) with (fun t => SP (term a) (S n) t + term a (S (S n)) t).
    change (SP (term (fun k => a (S k))) (S n) t) with (SP (term (fun k => a (S k))) n t + term (fun k => a (S k)) (S n) t).
    apply derivable_pt_lim_plus; [exact IH|apply term_derivative].
Qed.

Theorem series_derivative t : derivable_pt_lim (series a C K K0 B) t (series (fun k => a (S k)) (C * K) K K0 shift_bound t).
Proof.
  assert (P : 0 < Rabs t + 1) by (pose proof (Rabs_pos t); lra). set (r := mkposreal _ P).
  apply (derivable_pt_lim_CVU (fun n => SP (term a) (S n)) (fun n => SP (term (fun k => a (S k))) n) _ _ t 0 r).
  - unfold Boule. cbn. rewrite Rminus_0_r. lra.
  - intros y n _. apply partial_derivative.
  - intros y _. pose proof (series_cv a C K K0 B y) as X. intros eps Eps. destruct (X eps Eps) as (N & HN). exists N. intros n Hn. apply HN. lia.
  - apply series_cvu.
  - intros y _. apply series_continuous.
Qed.
End Derivative.

(** ** Finitely many unknowns *)
Section System.
Variable I : Type.
Variable dom : list I.
Variable inb : I -> bool.
Hypothesis inb_ok : forall i, inb i = true <-> In i dom.
Variable L : (I -> R) -> I -> R.
Variable K : R.
Hypothesis K0 : 0 <= K.
Hypothesis L_lin : forall c x d y i, In i dom -> L (fun j => c * x j + d * y j) i = c * L x i + d * L y i.
Hypothesis L_bound : forall x c, (forall j, In j dom -> Rabs (x j) <= c) -> forall i, In i dom -> Rabs (L x i) <= K * c.

Variable x0 : I -> R.

Fixpoint iter (k : nat) : I -> R := match k with O => x0 | S k => L (iter k) end.
Definition top : R := fold_right (fun i c => Rabs (x0 i) + c) 0 dom.
Lemma top_ok i : In i dom -> Rabs (x0 i) <= top.
Proof.
  unfold top. clear inb_ok L_lin L_bound. induction dom as [|j l IH]; [contradiction|]. intros [->|H]; cbn [fold_right].
  - assert (0 <= fold_right (fun i c => Rabs (x0 i) + c) 0 l); [|lra]. clear. induction l as [|j l IH]; cbn; [lra|]. pose proof (Rabs_pos (x0 j)). lra.
  - pose proof (Rabs_pos (x0 j)). specialize (IH H). lra.
Qed.
Lemma top_pos : 0 <= top.
Proof. unfold top. clear. induction dom as [|j l IH]; cbn; [lra|]. pose proof (Rabs_pos (x0 j)). lra. Qed.
Lemma iter_bound k : forall i, In i dom -> Rabs (iter k i) <= top * K ^ k.
Proof.
  induction k as [|k IH]; intros i Hi; cbn [iter pow]; [rewrite Rmult_1_r; apply top_ok, Hi|].
  replace (top * (K * K ^ k)) with (K * (top * K ^ k)) by ring. apply L_bound; [exact IH|exact Hi].
Qed.

Definition coef (i : I) (k : nat) : R := if inb i then iter k i else 0.
Lemma coef_bound i k : Rabs (coef i k) <= top * K ^ k.
Proof.
  unfold coef. destruct (inb i) eqn:Q; [apply iter_bound, inb_ok, Q|]. rewrite Rabs_R0. apply Rmult_le_pos; [apply top_pos|apply pow_le, K0].
Qed.
Definition flow (t : R) (i : I) : R := series (coef i) top K K0 (coef_bound i) t.

Lemma flow_0 i : In i dom -> flow 0 i = x0 i.
Proof. intro Hi. unfold flow. rewrite series_0. unfold coef. apply inb_ok in Hi. rewrite Hi. reflexivity. Qed.

(** partial sums *)
Definition part (N : nat) (t : R) (i : I) : R := SP (term (coef i)) N t.
Lemma L_part N t i : In i dom -> L (part N t) i = SP (term (fun k => coef i (S k))) N t.
Proof.
  intro Hi. assert (Q : inb i = true) by (apply inb_ok, Hi).
  assert (E : forall x y, (forall j, In j dom -> x j = y j) -> L x i = L y i).
  { intros x y H. assert (Z : Rabs (L (fun j => 1 * x j + -1 * y j) i) <= K * 0).
    { apply L_bound; [|exact Hi]. intros j J. rewrite (H j J). replace (1 * y j + -1 * y j) with 0 by ring. rewrite Rabs_R0. lra. }
    rewrite L_lin in Z by exact Hi. rewrite Rmult_0_r in Z. pose proof (Rabs_pos (1 * L x i + -1 * L y i)).
    destruct (Req_dec (1 * L x i + -1 * L y i) 0) as [W|W]; [lra|]. apply Rabs_no_R0 in W. lra. }
  induction N as [|N IH].
  - unfold SP. cbn [sum_f_R0]. rewrite (E _ (fun j => 1 * x0 j + 0 * x0 j)).
    + rewrite L_lin by exact Hi. unfold term, coef. rewrite Q. cbn. field.
    + intros j J. unfold part, SP. cbn [sum_f_R0]. unfold term, coef. apply inb_ok in J. rewrite J. cbn. field.
  - change (SP (term (fun k => coef i (S k))) (S N) t) with (SP (term (fun k => coef i (S k))) N t + term (fun k => coef i (S k)) (S N) t).
    rewrite <- IH. rewrite (E _ (fun j => 1 * part N t j + (/ INR (fact (S N)) * t ^ S N) * iter (S N) j)).
    + rewrite L_lin by exact Hi. unfold term, coef. rewrite Q. cbn [iter]. ring.
    + intros j J. unfold part, SP. cbn [sum_f_R0]. unfold term at 2, coef. apply inb_ok in J. rewrite J. ring.
Qed.

Lemma all_close t eps : 0 < eps -> exists N, forall n, (N <= n)%nat -> forall i, In i dom -> Rabs (part n t i - flow t i) <= eps.
Proof.
  intro Eps. assert (X : forall l, exists N, forall n, (N <= n)%nat -> forall i, In i l -> Rabs (part n t i - flow t i) <= eps).
  { induction l as [|j l (N & IH)]; [exists 0%nat; contradiction|].
    destruct (series_cv (coef j) top K K0 (coef_bound j) t eps Eps) as (N' & HN). exists (Nat.max N N'). intros n Hn i [->|H].
    - left. apply HN. lia.
    - apply IH; [lia|exact H]. }
  apply X.
Qed.

Theorem flow_solves t i : In i dom -> derivable_pt_lim (fun t => flow t i) t (L (flow t) i).
Proof.
  intro Hi. replace (L (flow t) i) with (series (fun k => coef i (S k)) (top * K) K K0 (shift_bound (coef i) top K (coef_bound i)) t).
  - apply series_derivative.
  - apply (UL_sequence (fun N => SP (term (fun k => coef i (S k))) N t)); [apply series_cv|].
    intros eps Eps. destruct (all_close t (eps / (K + 1))) as (N & HN); [apply Rdiv_lt_0_compat; lra|]. exists N. intros n Hn.
    rewrite <- L_part by exact Hi. unfold R_dist.
    replace (L (part n t) i - L (flow t) i) with (1 * L (part n t) i + -1 * L (flow t) i) by ring. rewrite <- L_lin by exact Hi.
    apply Rle_lt_trans with (K * (eps / (K + 1))).
    + apply L_bound; [|exact Hi]. intros j J. replace (1 * part n t j + -1 * flow t j) with (part n t j - flow t j) by ring. apply HN; [lia|exact J].
    + assert (P : 0 < eps / (K + 1)) by (apply Rdiv_lt_0_compat; lra). replace eps with ((K + 1) * (eps / (K + 1))) at 2 by (field; lra). lra.
Qed.
End System.
