(** Facts about cross-section lookups. *)
From Coq Require Import List Arith ZArith Reals Lra Lia Bool.
From Verif Require Import Err AkimaModel BicubicModel TauModel XsModel AkimaBicubicProps.
Import ListNotations.
Local Open Scope R_scope.

Lemma rlt_true x y : x < y -> rlt x y = true. Proof. unfold rlt; destruct (Rlt_dec x y); [reflexivity | lra]. Qed.
Lemma rlt_false x y : y <= x -> rlt x y = false. Proof. unfold rlt; destruct (Rlt_dec x y); [lra | reflexivity]. Qed.
Lemma rle_true x y : x <= y -> rle x y = true. Proof. unfold rle; destruct (Rle_dec x y); [reflexivity | lra]. Qed.
Lemma rle_false x y : y < x -> rle x y = false. Proof. unfold rle; destruct (Rle_dec x y); [lra | reflexivity]. Qed.
Lemma rlt_cases x y : (rlt x y = true /\ x < y) \/ (rlt x y = false /\ y <= x).
Proof. unfold rlt; destruct (Rlt_dec x y); [left | right]; split; (reflexivity || lra). Qed.

Lemma Int_part_unique q z : IZR z <= q < IZR z + 1 -> Int_part q = z.
Proof.
  intros H; pose proof (base_Int_part q) as [A B].
  assert (Int_part q < z + 1)%Z by (apply lt_IZR; rewrite plus_IZR; lra).
  assert (z < Int_part q + 1)%Z by (apply lt_IZR; rewrite plus_IZR; lra).
  lia.
Qed.
Lemma to_size_nat q i : INR i <= q < INR i + 1 -> to_size q = Ok i.
Proof.
  intros H; unfold to_size; rewrite rle_false by (pose proof (pos_INR i); lra).
  rewrite (Int_part_unique q (Z.of_nat i)) by (rewrite <- INR_IZR_INZ; exact H). rewrite Nat2Z.id; reflexivity.
Qed.
Lemma to_size_neg q : -1 < q < 0 -> to_size q = Ok 0%nat.
Proof. intros H; unfold to_size; rewrite rle_false by lra. rewrite (Int_part_unique q (-1)) by (simpl; lra). reflexivity. Qed.
Lemma nat_below q : 0 <= q -> exists i, INR i <= q < INR i + 1.
Proof.
  intros H; pose proof (base_Int_part q) as [A B].
  assert (0 <= Int_part q)%Z. { assert (-1 < Int_part q)%Z by (apply lt_IZR; simpl; lra). lia. }
  exists (Z.to_nat (Int_part q)). rewrite INR_IZR_INZ, Z2Nat.id by assumption. lra.
Qed.

Section Uniform.
Variables GeV tiny : R.
Variable T : v1.
Variable d : R.
Hypothesis dpos : 0 < d.
Hypothesis n2 : (2 <= v_n T)%nat.
Hypothesis GeVpos : 0 < GeV.
Hypothesis grid : forall i, (i < v_n T)%nat -> v_l T i = v_l T 0%nat + INR i * d.
Hypothesis lo : v_Emin T = GeV * exp (v_l T 0%nat).
Hypothesis hi : v_Emax T = GeV * exp (v_l T (v_n T - 1)%nat).
Notation n := (v_n T).
Notation l := (v_l T).

Lemma step1 : l 1%nat - l 0%nat = d.
Proof. rewrite (grid 1) by lia. simpl; lra. Qed.
Lemma log_lo E : v_Emin T <= E -> l 0%nat <= ln (E / GeV).
Proof.
  intros H; rewrite lo in H. pose proof (exp_pos (l 0%nat)).
  destruct (Rle_lt_dec (l 0%nat) (ln (E / GeV))) as [|C]; [assumption | exfalso].
  assert (0 < E / GeV) by (apply Rdiv_lt_0_compat; [nra | lra]).
  apply exp_increasing in C; rewrite exp_ln in C by assumption.
  assert (E = (E / GeV) * GeV) by (field; lra). nra.
Qed.
Lemma log_hi E : 0 < E -> E < v_Emax T -> ln (E / GeV) < l (n - 1)%nat.
Proof.
  intros P H; rewrite hi in H.
  assert (0 < E / GeV) by (apply Rdiv_lt_0_compat; lra).
  apply exp_lt_inv; rewrite exp_ln by assumption.
  apply Rmult_lt_reg_r with GeV; [lra|]. replace (E / GeV * GeV) with E by (field; lra). lra.
Qed.
Lemma Emin_pos : 0 < v_Emin T. Proof. rewrite lo; pose proof (exp_pos (l 0%nat)); nra. Qed.
Lemma log_mono A B : 0 < A -> A < B -> ln (A / GeV) < ln (B / GeV).
Proof. intros; apply ln_increasing; [apply Rdiv_lt_0_compat; lra | apply Rmult_lt_compat_r; [apply Rinv_0_lt_compat; lra | lra]]. Qed.
(** The cell of a logarithm. *)
Lemma cell x : l 0%nat <= x < l (n - 1)%nat -> exists i, (S i < n)%nat /\ l i <= x < l (S i) /\ to_size ((x - l 0%nat) / d) = Ok i.
Proof.
  intros [A B].
  destruct (nat_below ((x - l 0%nat) / d)) as [i [P Q]].
  { apply Rmult_le_pos; [lra | left; apply Rinv_0_lt_compat; lra]. }
  assert (P' : INR i * d <= x - l 0%nat). { replace (x - l 0%nat) with ((x - l 0%nat) / d * d) by (field; lra). apply Rmult_le_compat_r; lra. }
  assert (Q' : x - l 0%nat < (INR i + 1) * d). { replace (x - l 0%nat) with ((x - l 0%nat) / d * d) by (field; lra). apply Rmult_lt_compat_r; lra. }
  rewrite (grid (n - 1)) in B by lia.
  assert (I : (i < n - 1)%nat).
  { apply INR_lt. apply Rmult_lt_reg_r with d; lra. }
  exists i; split; [lia | split].
  - rewrite (grid i), (grid (S i)) by lia. rewrite S_INR. lra.
  - apply to_size_nat; lra.
Qed.
Lemma cell_node i : (i < n)%nat -> to_size ((l i - l 0%nat) / d) = Ok i.
Proof. intros H; rewrite (grid i) by assumption. apply to_size_nat. replace (_ / d) with (INR i) by (field; lra). lra. Qed.
Lemma cell_step i : (S i < n)%nat -> l (S i) - l i = d.
Proof. intros; rewrite (grid (S i)), (grid i) by lia; rewrite S_INR; lra. Qed.
End Uniform.

Lemma lin_chord x xM xP yM yP : xM <> xP -> (xP - xM) * lin_inter x xM xP yM yP = (xP - x) * yM + (x - xM) * yP.
Proof. intros; unfold lin_inter; field; lra. Qed.
Lemma lin_between x xM xP yM yP a b : xM < xP -> xM <= x <= xP -> a <= yM <= b -> a <= yP <= b -> a <= lin_inter x xM xP yM yP <= b.
Proof.
  intros H Hx A B. pose proof (lin_chord x xM xP yM yP ltac:(lra)) as C. set (v := lin_inter _ _ _ _ _) in *.
  assert (P : 0 < xP - xM) by lra. split; apply Rmult_le_reg_l with (xP - xM); try assumption; rewrite C; nra.
Qed.
Lemma tri_bary x y x0 d z1 z2 z3 : 0 < d -> d * tri_inter x y x0 x0 z1 (x0 + d) x0 z2 (x0 + d) (x0 + d) z3 = (x0 + d - x) * z1 + (x - y) * z2 + (y - x0) * z3.
Proof. intros; unfold tri_inter; cbv zeta; field. assert (0 < d * d) by nra. intros E. ring_simplify in E. nra. Qed.
Lemma tri_between x y x0 d z1 z2 z3 a b : 0 < d -> x <= x0 + d -> y <= x -> x0 <= y -> a <= z1 <= b -> a <= z2 <= b -> a <= z3 <= b ->
  a <= tri_inter x y x0 x0 z1 (x0 + d) x0 z2 (x0 + d) (x0 + d) z3 <= b.
Proof.
  intros H A B C Z1 Z2 Z3. pose proof (tri_bary x y x0 d z1 z2 z3 H) as V. set (v := tri_inter _ _ _ _ _ _ _ _ _ _ _) in *.
  split; apply Rmult_le_reg_l with d; try assumption; rewrite V; nra.
Qed.

Lemma at1_ok n f i : (i < n)%nat -> at1 n f i = Ok (f i).
Proof. intros H; unfold at1; apply Nat.ltb_lt in H; rewrite H; reflexivity. Qed.
Lemma at2_ok n f i j : (i < n)%nat -> (j < n)%nat -> at2 n f i j = Ok (f i j).
Proof. intros H K; unfold at2; apply Nat.ltb_lt in H; apply Nat.ltb_lt in K; rewrite H, K; reflexivity. Qed.
Lemma at1_out n f i : (n <= i)%nat -> at1 n f i = UB.
Proof. intros H; unfold at1; apply Nat.ltb_ge in H; rewrite H; reflexivity. Qed.

Lemma total_checks_in GeV tiny Emin Emax fuel core E f : f <> sterile -> Emin <= E -> E <= Emax -> total_checks GeV tiny Emin Emax fuel core E f = core E.
Proof.
  intros F A B. assert (S : is_sterile f = false) by (destruct f; (reflexivity || congruence)).
  assert (andb (rlt E (10 * GeV)) (rlt (10 * GeV) Emin) = false) as C.
  { destruct (rlt_cases E (10 * GeV)) as [[-> ?]|[-> ?]]; [|reflexivity]. rewrite rlt_false by lra; reflexivity. }
  destruct fuel; cbn [total_checks]; rewrite S, (rlt_false Emax E), C, (rlt_false E Emin) by lra; reflexivity.
Qed.
Lemma total_checks_S GeV tiny Emin Emax k core E f : total_checks GeV tiny Emin Emax (S k) core E f =
  if is_sterile f then Ok 0 else if rlt Emax E then Throw RuntimeError
  else if andb (rlt E (10 * GeV)) (rlt (10 * GeV) Emin) then Ok tiny
  else if rlt E Emin then obind (total_checks GeV tiny Emin Emax k core Emin f) (fun v => Ok (v * (E / Emin))) else core E.
Proof. reflexivity. Qed.
Lemma total_checks_below GeV tiny Emin Emax core E f : f <> sterile -> Emin <= Emax -> E < Emin -> (10 * GeV <= E \/ Emin <= 10 * GeV) ->
  total_checks GeV tiny Emin Emax 1 core E f = obind (core Emin) (fun v => Ok (v * (E / Emin))).
Proof.
  intros F M A B. assert (S : is_sterile f = false) by (destruct f; (reflexivity || congruence)).
  assert (andb (rlt E (10 * GeV)) (rlt (10 * GeV) Emin) = false) as C.
  { destruct B; [rewrite (rlt_false E) by lra; reflexivity | rewrite (rlt_false _ Emin) by lra; apply andb_false_r]. }
  rewrite total_checks_S, S, (rlt_false Emax E), C, (rlt_true E Emin) by lra.
  rewrite total_checks_in by (assumption || lra). reflexivity.
Qed.
