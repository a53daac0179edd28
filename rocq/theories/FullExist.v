(** The equation of FullSpec has a solution in steady matter without tau
    regeneration, and there are exact integrators. *)
From Coq Require Import Reals List Arith Bool Lia Lra FunctionalExtensionality.
From Verif Require Import TauModel XsModel IntModel IntProofs IntLayoutProofs IntProps StateModel StateProofs StateHistory StateLaws StateReady StateFrames.
From Verif Require Import CMatrix FlavorModel FlavorProofs FlavorProps FlavorEqn FlavorEqnProps AvgProofs SuperModel SuperProofs SuperProps PosProofs PosProps.
From Verif Require Import TransProofs TransProps EndModel EndProps FullModel FullSpec FullProofs FullProps.
From Verif Require ExpProofs.
Import ListNotations.
Local Open Scope R_scope.

(** ** Hermitian matrices as [n * n] numbers *)
Definition hmat (n : nat) (v : nat -> R) : mat := fun i j =>
  if Nat.ltb i j then mkC (v (i * n + j)%nat) (v (j * n + i)%nat)
  else if Nat.ltb j i then mkC (v (j * n + i)%nat) (- v (i * n + j)%nat) else mkC (v (i * n + i)%nat) 0.
Definition comps (n : nat) (A : mat) (k : nat) : R :=
  (if Nat.ltb (k mod n) (k / n) then im (A (k mod n) (k / n)) else re (A (k / n) (k mod n)))%nat.
Lemma comps_at n A i j : (j < n)%nat -> comps n A (i * n + j) = if Nat.ltb j i then im (A j i) else re (A i j).
Proof. intro Hj. destruct (digit i j n Hj) as (X & Y). unfold comps. rewrite X, Y. reflexivity. Qed.
Lemma hmat_comps n A : hermitian n A -> meq n (hmat n (comps n A)) A.
Proof.
  intros Hh i j Hi Hj. pose proof (Hh i j Hi Hj) as E. unfold dagger in E. apply (f_equal re) in E as Er. apply (f_equal im) in E as Ei. cbn in Er, Ei.
  unfold hmat. rewrite !comps_at by assumption.
  destruct (Nat.ltb_spec i j) as [X|X]; [|destruct (Nat.ltb_spec j i) as [Y|Y]].
  - destruct (Nat.ltb_spec j i); [lia|]. apply Ceq; reflexivity.
  - destruct (Nat.ltb_spec i j); [lia|]. apply Ceq; cbn; lra.
  - assert (i = j) by lia. subst j. rewrite Nat.ltb_irrefl. apply Ceq; cbn; lra.
Qed.
Lemma hmat_herm n v : hermitian n (hmat n v).
Proof.
  intros i j _ _. unfold dagger, hmat. destruct (Nat.ltb_spec i j) as [X|X]; [|destruct (Nat.ltb_spec j i) as [Y|Y]].
  - destruct (Nat.ltb_spec j i); [lia|]. apply Ceq; cbn; lra.
  - apply Ceq; cbn; lra.
  - assert (i = j) by lia. subst j. apply Ceq; cbn; lra.
Qed.
Lemma hmat_ext n u v : (forall k, (k < n * n)%nat -> u k = v k) -> meq n (hmat n u) (hmat n v).
Proof. intros E i j Hi Hj. unfold hmat. rewrite !E by nia. reflexivity. Qed.
Lemma hmat_lin n a b u v : hmat n (fun k => a * u k + b * v k) = mplus (mscale a (hmat n u)) (mscale b (hmat n v)).
Proof.
  apply functional_extensionality. intro i. apply functional_extensionality. intro j. unfold hmat, mplus, mscale.
  destruct (Nat.ltb i j); [|destruct (Nat.ltb j i)]; apply Ceq; cbn; ring.
Qed.
Lemma comps_meq n A B k : (k < n * n)%nat -> meq n A B -> comps n A k = comps n B k.
Proof.
  intros Hk E. assert (N0 : n <> 0%nat) by (intro; subst; lia). pose proof (Nat.mod_upper_bound k n N0) as X. pose proof (Nat.div_lt_upper_bound k n n N0 Hk) as Y.
  unfold comps. destruct (Nat.ltb _ _); rewrite E by assumption; reflexivity.
Qed.
Lemma comps_lin n a b A B k : comps n (mplus (mscale a A) (mscale b B)) k = a * comps n A k + b * comps n B k.
Proof. unfold comps, mplus, mscale. destruct (Nat.ltb _ _); cbn; ring. Qed.

Definition hdot (n : nat) (u v : vec) : R := re (trace n (mmult n (hmat n u) (hmat n v))).
Lemma hmat_repr n : su_repr n (hmat n) (hdot n).
Proof.
  constructor.
  - apply hmat_ext.
  - intros u v. pose proof (hmat_lin n 1 1 u v) as X. replace (vadd u v) with (fun k => 1 * u k + 1 * v k) by (apply functional_extensionality; intro; unfold vadd; ring).
    rewrite X. intros i j _ _. unfold mplus, mscale. apply Ceq; cbn; ring.
  - intros x u. pose proof (hmat_lin n x 0 u u) as X. replace (vscale x u) with (fun k => x * u k + 0 * u k) by (apply functional_extensionality; intro; unfold vscale; ring).
    rewrite X. intros i j _ _. unfold mplus, mscale. apply Ceq; cbn; ring.
  - reflexivity.
Qed.

(** all nodes and kinds as one list *)
Definition hcell (n nr : nat) (F : nat -> nat -> mat) (k : nat) : R :=
  let k1 := (k / (n * n))%nat in comps n (F (k1 / nr)%nat (k1 mod nr)%nat) (k mod (n * n)).
Definition henc (n nr ne : nat) (F : nat -> nat -> mat) : list R := map (hcell n nr F) (seq 0 ((ne * nr) * (n * n))).
Definition hdec (n nr : nat) (l : list R) (ie r : nat) : mat := hmat n (fun k => nth ((ie * nr + r) * (n * n) + k) l 0).
Lemma hdec_henc n nr ne F ie r : (ie < ne)%nat -> (r < nr)%nat -> hermitian n (F ie r) -> meq n (hdec n nr (henc n nr ne F) ie r) (F ie r).
Proof.
  intros Hi Hr Hh. eapply meq_trans; [|apply hmat_comps, Hh]. apply hmat_ext. intros k Hk. unfold henc.
  assert (B : ((ie * nr + r) * (n * n) + k < (ne * nr) * (n * n))%nat) by (apply digit_lt; [exact Hk|apply digit_lt; assumption]).
  rewrite nth_indep with (d' := hcell n nr F 0) by (rewrite map_length, seq_length; exact B).
  rewrite map_nth, seq_nth by exact B. cbn [plus]. unfold hcell.
  destruct (digit (ie * nr + r) k (n * n) Hk) as (X1 & X2). destruct (digit ie r nr Hr) as (Y1 & Y2). rewrite X1, X2, Y1, Y2. reflexivity.
Qed.

(** ** A linear map of finitely many numbers is bounded *)
Section Bound.
Variable I : Type.
Variable eqd : forall a b : I, {a = b} + {a <> b}.
Variable L : (I -> R) -> I -> R.
Hypothesis lin : forall c x d y i, L (fun j => c * x j + d * y j) i = c * L x i + d * L y i.
Definition unit_at (j : I) : I -> R := fun k => if eqd k j then 1 else 0.
Fixpoint weight (l : list I) (i : I) : R := match l with [] => 0 | j :: l => Rabs (L (unit_at j) i) + weight l i end.
Lemma weight_pos l i : 0 <= weight l i.
Proof. induction l as [|j l IH]; cbn; [lra|]. pose proof (Rabs_pos (L (unit_at j) i)). lra. Qed.
Lemma weight_bounds l : forall x c i, 0 <= c -> (forall j, ~ In j l -> x j = 0) -> (forall j, In j l -> Rabs (x j) <= c) -> Rabs (L x i) <= weight l i * c.
Proof.
  induction l as [|j l IH]; intros x c i C Z B; cbn [weight].
  - replace x with (fun k => 0 * x k + 0 * x k) by (apply functional_extensionality; intro k; rewrite (Z k) by tauto; ring).
    rewrite lin. replace (0 * L x i + 0 * L x i) with 0 by ring. rewrite Rabs_R0. lra.
  - set (y := fun k => if eqd k j then 0 else x k).
    assert (E : x = (fun k => x j * unit_at j k + 1 * y k)).
    { apply functional_extensionality. intro k. unfold y, unit_at. destruct (eqd k j) as [->|]; ring. }
    assert (Y : Rabs (L y i) <= weight l i * c).
    { apply IH; [exact C| |].
      - intros k Hk. unfold y. destruct (eqd k j); [reflexivity|]. apply Z. intros [X|X]; [subst; congruence|contradiction].
      - intros k Hk. unfold y. destruct (eqd k j); [rewrite Rabs_R0; exact C|]. apply B. right. exact Hk. }
    rewrite E, lin. eapply Rle_trans; [apply Rabs_triang|]. rewrite !Rabs_mult, Rabs_R1.
    assert (Rabs (x j) * Rabs (L (unit_at j) i) <= c * Rabs (L (unit_at j) i)) by (apply Rmult_le_compat_r; [apply Rabs_pos|apply B; left; reflexivity]).
    lra.
Qed.
Definition total (l : list I) : R := fold_right (fun i c => weight l i + c) 0 l.
Lemma total_pos l : 0 <= total l.
Proof. unfold total. generalize l at 2. intro k. induction k as [|j k IH]; cbn; [lra|]. pose proof (weight_pos l j). lra. Qed.
Lemma total_bounds l x c : 0 <= c -> (forall j, ~ In j l -> x j = 0) -> (forall j, In j l -> Rabs (x j) <= c) -> forall i, In i l -> Rabs (L x i) <= total l * c.
Proof.
  intros C Z B i Hi. eapply Rle_trans; [exact (weight_bounds l x c i C Z B)|]. apply Rmult_le_compat_r; [exact C|].
  unfold total. assert (X : forall k, In i k -> weight l i <= fold_right (fun i c => weight l i + c) 0 k); [|apply X, Hi].
  induction k as [|j k IH]; [contradiction|]. cbn [fold_right]. pose proof (weight_pos l j).
  assert (0 <= fold_right (fun i c => weight l i + c) 0 k) by (clear; induction k as [|a k IH]; cbn; [lra|]; pose proof (weight_pos l a); lra).
  intros [->|X]; [lra|]. specialize (IH X). lra.
Qed.
End Bound.

Lemma hmat_deriv n (F : R -> nat -> R) D x : (forall k, (k < n * n)%nat -> derivable_pt_lim (fun u => F u k) x (D k)) ->
  mderiv n (fun u => hmat n (F u)) x (hmat n D).
Proof.
  intros H i j Hi Hj. unfold hmat. destruct (Nat.ltb i j); [|destruct (Nat.ltb j i)]; cbn [re im]; split.
  - apply H. nia.
  - apply H. nia.
  - apply H. nia.
  - apply (derivable_pt_lim_opp (fun u => F u (i * n + j)%nat)). apply H. nia.
  - apply H. nia.
  - apply (derivable_pt_lim_const 0).
Qed.

(** ** The equation in steady matter *)
Section Steady.
Variable order : list (nat * nat).
Variable m : media.
Variable emission : body -> R -> nat -> nat -> nat -> R.
Variable w : object.
Variable g : stage.
Let n := ob_n w.
Let bd := l_body (sg_leg g).
Hypothesis L3 : (3 <= n)%nat.
Hypothesis PO : pairs_ok n order.
Hypothesis NT : sg_tau g = false.
Definition steady (b : body) : Prop := forall p, m_rho m b p = m_rho m b 0 /\ m_ye m b p = m_ye m b 0 /\ emission b p = emission b 0.
Hypothesis ST : steady bd.

Lemma gain_lin p a b fl fl' r f e : gain m w g p (fun r f e => a * fl r f e + b * fl' r f e) r f e = a * gain m w g p fl r f e + b * gain m w g p fl' r f e.
Proof.
  unfold gain. rewrite NT. unfold scattered, resonant, from_above.
  assert (S1 : forall lo hi h u v, (forall i, h i = a * u i + b * v i) -> IntProofs.rsum lo hi h = a * IntProofs.rsum lo hi u + b * IntProofs.rsum lo hi v).
  { intros lo hi h u v E. apply SuperProps.rsum_lin. intros i _. apply E. }
  rewrite (S1 (Datatypes.S e) (ob_ne w) _
    (fun e2 => each g (fun i => fl r f e2 * neutral_len m g p r f e2 * width w (e2 - 1) * share (sg_one g) (ye_ m g p) i * t_dNC (sg_tab g) i r f e2 e))
    (fun e2 => each g (fun i => fl' r f e2 * neutral_len m g p r f e2 * width w (e2 - 1) * share (sg_one g) (ye_ m g p) i * t_dNC (sg_tab g) i r f e2 e)))
    by (intro e2; apply S1; intro i; ring).
  destruct (sg_gr g && anti_kind w r)%bool; [|ring].
  rewrite (S1 (Datatypes.S e) (ob_ne w)
    (fun e2 => (a * fl r 0%nat e2 + b * fl' r 0%nat e2) * resonant_len m g p e2 * width w (e2 - 1) * t_dGR (sg_tab g) e2 e)
    (fun e2 => fl r 0%nat e2 * resonant_len m g p e2 * width w (e2 - 1) * t_dGR (sg_tab g) e2 e)
    (fun e2 => fl' r 0%nat e2 * resonant_len m g p e2 * width w (e2 - 1) * t_dGR (sg_tab g) e2 e)) by (intro e2; ring).
  ring.
Qed.
Lemma comb_herm q (a : nat -> R) e r : (q <= n)%nat -> hermitian n (msum q (fun f => mscale (a f) (flavour order (at_node w e r) f))).
Proof.
  induction q as [|q IH]; intro Hq; cbn [msum]; [apply herm_zero|]. apply herm_plus; [apply IH; lia|]. apply herm_scale. apply (flavour_projector order w PO e r q). exact Hq.
Qed.
Lemma comb_lin q a b (x y : nat -> R) (P : nat -> mat) :
  meq n (msum q (fun f => mscale (a * x f + b * y f) (P f))) (mplus (mscale a (msum q (fun f => mscale (x f) (P f)))) (mscale b (msum q (fun f => mscale (y f) (P f))))).
Proof.
  induction q as [|q IH]; cbn [msum].
  - intros i j _ _. unfold mplus, mscale, mzero. apply Ceq; cbn; ring.
  - eapply meq_trans; [apply mplus_meq; [exact IH|apply meq_refl]|]. intros i j _ _. unfold mplus, mscale. apply Ceq; cbn; ring.
Qed.

(** unknowns: the numbers of all matrices, and one that stays 1 *)
Definition place : Type := option (nat * nat * nat).
Definition place_eq (a b : place) : {a = b} + {a <> b}.
Proof. repeat decide equality. Defined.
Definition cells : list place := None :: map Some (list_prod (list_prod (seq 0 (ob_ne w)) (seq 0 (ob_nr w))) (seq 0 (n * n))).
Definition inside (p : place) : bool := match p with None => true | Some (e, r, k) => Nat.ltb e (ob_ne w) && Nat.ltb r (ob_nr w) && Nat.ltb k (n * n) end.
Lemma inside_ok p : inside p = true <-> In p cells.
Proof.
  destruct p as [[[e r] k]|]; cbn [inside cells In]; [|split; [left; reflexivity|reflexivity]].
  rewrite in_map_iff, !andb_true_iff, !Nat.ltb_lt. split.
  - intros ((A & B) & C). right. exists (e, r, k). split; [reflexivity|]. apply in_prod; [apply in_prod|]; apply in_seq; lia.
  - intros [X|(q & E & X)]; [discriminate|]. injection E as ->. apply in_prod_iff in X. destruct X as (X & C). apply in_prod_iff in X. destruct X as (A & B).
    apply in_seq in A, B, C. lia.
Qed.
Definition mats (x : place -> R) (e r : nat) : mat := hmat n (fun k => if inside (Some (e, r, k)) then x (Some (e, r, k)) else 0).
Definition gained (fl : nat -> nat -> nat -> R) (e r : nat) : mat :=
  if ob_int w then msum 3 (fun f => mscale (gain m w g 0 fl r f e) (flavour order (at_node w e r) f)) else mzero.
Definition emitted (e r : nat) : mat :=
  if sg_src g then msum n (fun f => mscale (emission bd 0 e r f) (flavour order (at_node w e r) f)) else mzero.
Definition gen (x : place -> R) (e r : nat) : mat :=
  rhs n (full (leg_world order m (at_node w e r) (sg_leg g)) 0) (damping order m w g 0 e r)
    (mplus (gained (seen order w (mats x)) e r) (mscale (x None) (emitted e r))) (mats x e r).
Definition act (x : place -> R) (p : place) : R :=
  if inside p then match p with None => 0 | Some (e, r, k) => comps n (gen x e r) k end else 0.

Lemma mats_lin a x b y e r : mats (fun p => a * x p + b * y p) e r = mplus (mscale a (mats x e r)) (mscale b (mats y e r)).
Proof.
  unfold mats. rewrite <- hmat_lin. f_equal. apply functional_extensionality. intro k. destruct (inside _); ring.
Qed.
Lemma seen_lin a x b y r f e : seen order w (mats (fun p => a * x p + b * y p)) r f e = a * seen order w (mats x) r f e + b * seen order w (mats y) r f e.
Proof. unfold seen. rewrite mats_lin, expect_plus_r, !expect_scale_r. reflexivity. Qed.
Lemma gen_lin a x b y e r : meq n (gen (fun p => a * x p + b * y p) e r) (mplus (mscale a (gen x e r)) (mscale b (gen y e r))).
Proof.
  unfold gen. rewrite mats_lin. eapply meq_trans; [|apply rhs_lin]. apply rhs_meq; try apply meq_refl.
  assert (G : meq n (gained (seen order w (mats (fun p => a * x p + b * y p))) e r)
    (mplus (mscale a (gained (seen order w (mats x)) e r)) (mscale b (gained (seen order w (mats y)) e r)))).
  { unfold gained. destruct (ob_int w).
    - eapply meq_trans; [|apply comb_lin]. apply msum_meq. intros f _. rewrite <- gain_lin.
      replace (seen order w (mats (fun p => a * x p + b * y p))) with (fun r f e => a * seen order w (mats x) r f e + b * seen order w (mats y) r f e);
        [apply meq_refl|]. apply functional_extensionality; intro r1. apply functional_extensionality; intro f1. apply functional_extensionality; intro e1. symmetry. apply seen_lin.
    - intros i j _ _. unfold mplus, mscale, mzero. apply Ceq; cbn; ring. }
  eapply meq_trans; [apply mplus_meq; [exact G|apply meq_refl]|]. intros i j _ _. unfold mplus, mscale. apply Ceq; cbn; ring.
Qed.
Lemma act_lin c x d y p : act (fun q => c * x q + d * y q) p = c * act x p + d * act y p.
Proof.
  unfold act. destruct (inside p) eqn:Q; [|ring]. destruct p as [[[e r] k]|]; [|ring]. cbn [inside] in Q. rewrite !andb_true_iff, !Nat.ltb_lt in Q.
  rewrite (comps_meq n _ _ k (proj2 Q) (gen_lin c x d y e r)). apply comps_lin.
Qed.
Lemma gen_local x y e r : (forall p, In p cells -> x p = y p) -> gen x e r = gen y e r.
Proof.
  intro E. assert (M : mats x = mats y).
  { apply functional_extensionality; intro e1. apply functional_extensionality; intro r1. unfold mats. f_equal. apply functional_extensionality; intro k.
    destruct (inside _) eqn:Q; [|reflexivity]. apply E, inside_ok, Q. }
  unfold gen. rewrite M, (E None) by (apply inside_ok; reflexivity). reflexivity.
Qed.
Definition bound : R := total place place_eq act cells.
Lemma act_bound x c : (forall p, In p cells -> Rabs (x p) <= c) -> forall p, In p cells -> Rabs (act x p) <= bound * c.
Proof.
  intros B p Hp. set (y := fun q => if inside q then x q else 0).
  assert (E : act x p = act y p).
  { unfold act. destruct (inside p); [|reflexivity]. destruct p as [[[e r] k]|]; [|reflexivity]. f_equal. apply gen_local. intros q Q. unfold y. apply inside_ok in Q. rewrite Q. reflexivity. }
  assert (C : 0 <= c) by (eapply Rle_trans; [apply Rabs_pos|apply (B None), inside_ok; reflexivity]).
  rewrite E. apply (total_bounds place place_eq act act_lin cells y c C); [| |exact Hp].
  - intros q Q. unfold y. destruct (inside q) eqn:X; [|reflexivity]. apply inside_ok in X. contradiction.
  - intros q Q. unfold y. apply inside_ok in Q as X. rewrite X. apply B, Q.
Qed.
Definition bound_pos : 0 <= bound := total_pos place place_eq act cells.

Variable A0 : nat -> nat -> mat.
Definition start_at (p : place) : R := match p with None => 1 | Some (e, r, k) => comps n (A0 e r) k end.
Definition moving (t : R) : place -> R := ExpProofs.flow place cells inside inside_ok act bound bound_pos act_bound start_at t.
(** the matrices of all nodes and kinds at clock [x], [A0] at [t] *)
Definition solution (t x : R) (e r : nat) : mat := mats (moving (x - t)) e r.

Lemma moving_solves t p : In p cells -> derivable_pt_lim (fun u => moving u p) t (act (moving t) p).
Proof. intro Hp. apply ExpProofs.flow_solves; [|exact Hp]. intros c x d y i _. apply act_lin. Qed.
Lemma moving_one t : moving t None = 1.
Proof.
  assert (D : forall u, derivable_pt_lim (fun u => moving u None) u 0) by (intro u; apply (moving_solves u None); apply inside_ok; reflexivity).
  assert (C : constant (fun u => moving u None)).
  { apply (null_derivative_1 _ (fun u => exist _ 0 (D u))). reflexivity. }
  rewrite (C t 0). unfold moving. rewrite ExpProofs.flow_0; [reflexivity|apply inside_ok; reflexivity].
Qed.
Lemma solution_start t e r : (e < ob_ne w)%nat -> (r < ob_nr w)%nat -> hermitian n (A0 e r) -> meq n (solution t t e r) (A0 e r).
Proof.
  intros He Hr Hh. unfold solution, mats. rewrite Rminus_diag_eq by reflexivity. eapply meq_trans; [|apply hmat_comps, Hh]. apply hmat_ext. intros k Hk.
  assert (Q : inside (Some (e, r, k)) = true) by (cbn [inside]; rewrite !andb_true_iff, !Nat.ltb_lt; lia).
  rewrite Q. unfold moving. rewrite ExpProofs.flow_0; [reflexivity|apply inside_ok, Q].
Qed.
Lemma solution_herm t x e r : hermitian n (solution t x e r).
Proof. apply hmat_herm. Qed.
Lemma gen_herm x e r : hermitian n (gen x e r).
Proof.
  unfold gen, hermitian. eapply meq_trans; [apply rhs_dagger|].
  - exact (full_hermitian (leg_world order m (at_node w e r) (sg_leg g)) 0 (conj L3 PO)).
  - unfold damping. destruct (ob_int w); [|apply herm_zero]. apply (comb_herm 3 (fun f => 1 / 2 * loss m w g 0 r f e)), L3.
  - apply herm_plus.
    + unfold gained. destruct (ob_int w); [|apply herm_zero]. apply (comb_herm 3 (fun f => gain m w g 0 (seen order w (mats x)) r f e)), L3.
    + apply herm_scale. unfold emitted. destruct (sg_src g); [|apply herm_zero]. apply (comb_herm n (fun f => emission bd 0 e r f)). apply Nat.le_refl.
  - apply rhs_meq; try apply meq_refl. apply hmat_herm.
Qed.
Lemma gen_change t x e r : meq n (gen (moving (x - t)) e r) (change order m emission w g x (solution t x) e r).
Proof.
  unfold gen, change. rewrite moving_one. set (p := x - l_shift (sg_leg g)). destruct (ST p) as (S1 & S2 & S3). destruct (ST (0 - l_shift (sg_leg g))) as (S4 & S5 & _).
  apply rhs_meq; [| | |apply meq_refl].
  - unfold full, leg_world. cbn [w_cc w_nc]. fold p bd. rewrite S1, S2, S4, S5. apply meq_refl.
  - unfold damping, loss, neutral_len, charged_len, resonant_len, rho_, ye_. fold bd. rewrite S1, S2. apply meq_refl.
  - unfold supply. apply mplus_meq.
    + unfold gained, gain, scattered, decayed, taus, resonant, neutral_len, charged_len, resonant_len, rho_, ye_. fold bd. rewrite S1, S2. apply meq_refl.
    + match goal with |- meq _ _ ?Y => replace Y with (emitted e r) by (unfold emitted; fold bd; rewrite S3; reflexivity) end.
      generalize (emitted e r). intros X i j _ _. unfold mscale. apply Ceq; cbn; ring.
Qed.
Theorem solution_solves t x e r : (e < ob_ne w)%nat -> (r < ob_nr w)%nat ->
  mderiv n (fun u => solution t u e r) x (change order m emission w g x (solution t x) e r).
Proof.
  intros He Hr. eapply FlavorEqn.mderiv_meq; [apply gen_change|]. eapply FlavorEqn.mderiv_meq; [apply hmat_comps, gen_herm|].
  unfold solution, mats. apply hmat_deriv. intros k Hk.
  assert (Q : inside (Some (e, r, k)) = true) by (cbn [inside]; rewrite !andb_true_iff, !Nat.ltb_lt; lia). rewrite Q.
  pose proof (moving_solves (x - t) (Some (e, r, k)) (proj1 (inside_ok _) Q)) as D. unfold act in D. rewrite Q in D.
  assert (M : derivable_pt_lim (fun u => u - t) x 1).
  { replace 1 with (1 - 0) by ring. apply (derivable_pt_lim_minus (fun u => u) (fun _ => t)); [apply derivable_pt_lim_id|apply derivable_pt_lim_const]. }
  pose proof (derivable_pt_lim_comp (fun u => u - t) (fun u => moving u (Some (e, r, k))) x _ _ M D) as Y. rewrite Rmult_1_r in Y. exact Y.
Qed.
End Steady.

(** ** An exact integrator *)
Lemma evolve_herm n H t A : hermitian n A -> hermitian n (evolve H t A).
Proof.
  intros E i j Hi Hj. unfold dagger, evolve. rewrite <- (E i j Hi Hj). unfold dagger. rewrite conj_mult, cexp_conj. f_equal. f_equal. ring.
Qed.
Lemma rotated_herm n b H t A : hermitian n A -> hermitian n (FullProofs.rotated b H t A).
Proof. intro E. destruct b; cbn [FullProofs.rotated]; try exact E; apply evolve_herm, E. Qed.
Lemma back_herm n b H t A : hermitian n A -> hermitian n (back b H t A).
Proof. intro E. destruct b; cbn [back]; try exact E; apply evolve_herm, E. Qed.
Lemma back_rotated n b H t A : meq n (back b H t (FullProofs.rotated b H t A)) A.
Proof.
  destruct b; cbn [FullProofs.rotated back]; try apply meq_refl; (eapply meq_trans; [apply evolve_evolve|]);
    (replace (- t + t) with 0 by ring); intros i j _ _; unfold evolve; rewrite Rmult_0_r, cexp_0; ring.
Qed.
Lemma rotated_back n b H t A : meq n (FullProofs.rotated b H t (back b H t A)) A.
Proof.
  destruct b; cbn [FullProofs.rotated back]; try apply meq_refl; (eapply meq_trans; [apply evolve_evolve|]);
    (replace (t + - t) with 0 by ring); intros i j _ _; unfold evolve; rewrite Rmult_0_r, cexp_0; ring.
Qed.
Lemma ket_herm n V k : (k < n)%nat -> hermitian n (rotate_b1 n V (ket_proj k)).
Proof. intro Hk. eapply herm_meq; [apply meq_sym, FlavorProofs.rotated, Hk|apply outer_hermitian]. Qed.
Lemma mass_herm n k : hermitian n (b0_proj k).
Proof. intros i j _ _. unfold dagger, b0_proj, ket_proj, delta. destruct (Nat.eqb i k), (Nat.eqb j k); apply Ceq; cbn; ring. Qed.
Lemma ini_herm n b V v : hermitian n (ini_state n b (fun k => rotate_b1 n (V k) (ket_proj k)) v).
Proof.
  unfold ini_state. assert (K : forall q, (q <= n)%nat -> hermitian n (msum q (fun j => mscale (v j) (match b with BFlavor => rotate_b1 n (V j) (ket_proj j) | _ => b0_proj j end)))); [|apply K, Nat.le_refl].
  induction q as [|q IH]; intro Hq; cbn [msum]; [apply herm_zero|]. apply herm_plus; [apply IH; lia|]. apply herm_scale.
  destruct b; try apply mass_herm. apply ket_herm. exact Hq.
Qed.

Section Integrator.
Variable order : list (nat * nat).
Variable m : media.
Variable emission : body -> R -> nat -> nat -> nat -> R.
Variable tab : tabs -> list R -> nt -> itables.
Hypothesis GM : good_media m.
Hypothesis O3 : Forall (fun p => (fst p < snd p < 3)%nat) order.
Hypothesis SD : forall b, steady m emission b.

Definition kinds_ok (s : nus) : bool := match q_nt s with IntModel.Both => Nat.eqb (q_nrhos s) 2 | _ => Nat.eqb (q_nrhos s) 1 end.
Definition failed : list R * bool * R * list R := ([], false, 0, []).
(** matrices in the mass basis when the evolution begins, and in the basis in use at clock [x] *)
Definition begun (s : nus) (e r : nat) : mat :=
  back (basis_of (o_basis (q_opts s))) (stored_H s e) (sq_t (q_sq s) - sq_t0 (q_sq s)) (matrix hdec s (sq_state (q_sq s)) e r).
Definition in_use (s : nus) (b : body) (off dt : R) (P : (3 <= q_numneu s)%nat) (Q : o_tau (q_opts s) = false) (x : R) (e r : nat) : mat :=
  FullProofs.rotated (basis_of (o_basis (q_opts s))) (stored_H s e) (x - sq_t0 (q_sq s))
    (solution order m emission (object_of s) (stage_of tab s (Leg b off dt)) P Q (begun s) (sq_t (q_sq s)) x e r).
Definition solver (s : nus) (dt : R) : list R * bool * R * list R :=
  match q_body s, q_offset s with
  | Some b, Some off =>
      match le_dec 3 (q_numneu s), bool_dec (o_tau (q_opts s)) false with
      | left P, left Q => if kinds_ok s then
          ([sq_t (q_sq s) + dt], true, 0, henc (q_numneu s) (q_nrhos s) (q_ne s) (in_use s b off dt P Q (sq_t (q_sq s) + dt)))
          else failed
      | _, _ => failed end
  | _, _ => failed end.
Definition steady_env (lib : option xslib) : env :=
  Env solver (fun h => h) (fun n => n)
    (fun s v b => henc (q_numneu s) (q_nrhos s) (q_ne s) (fun ie r => ini_state (q_numneu s) (basis_of b) (stored_P order s r) (v ie r)))
    (fun s => sq_state (q_sq s)) (fun s _ => sq_state (q_sq s)) lib (fun _ => true) 6 1 1.

Theorem steady_exact lib : exact_all order m emission tab hmat hdot hdec (steady_env lib).
Proof.
  constructor.
  - intros s v b ie r Hi Hr. cbn [steady_env e_mk]. unfold matrix. apply hdec_henc; [exact Hi|exact Hr|]. apply (ini_herm _ _ (fun k => mixing (q_numneu s) (p_angle (q_proj s r k)) (p_phase (q_proj s r k)) order)).
  - intros s dt ts t' l b off SV D B O OS HO FR. cbn [steady_env e_solve] in SV. unfold solver in SV. rewrite B, O in SV.
    destruct (le_dec 3 (q_numneu s)) as [P|]; [|discriminate]. destruct (bool_dec (o_tau (q_opts s)) false) as [Q|]; [|discriminate].
    destruct (kinds_ok s) eqn:KO; [|discriminate]. injection SV as _ _ <-.
    set (n := q_numneu s) in *. set (F := in_use s b off dt P Q).
    assert (SH : shapes s).
    { unfold kinds_ok in KO. split; [|split].
      - intro X. rewrite X in KO. apply Nat.eqb_eq, KO.
      - intro X. destruct (q_nt s); try congruence; apply Nat.eqb_eq, KO.
      - congruence. }
    assert (OO : Forall (fun p => (fst p < snd p < n)%nat) order) by (eapply Forall_impl; [|exact O3]; intros p X; cbn in X; lia).
    pose proof (ordered_ok n order OO) as PO.
    set (w := object_of s). set (g := stage_of tab s (Leg b off dt)). set (sol := solution order m emission w g P Q (begun s) (sq_t (q_sq s))).
    assert (HF : forall x e r, hermitian n (F x e r)) by (intros x e r; apply rotated_herm; exact (solution_herm order m emission w g P Q (begun s) (sq_t (q_sq s)) x e r)).
    set (st := fun x e r => comps n (F x e r)).
    assert (MS : forall x e r, meq n (hmat n (st x e r)) (F x e r)) by (intros x e r; apply hmat_comps, HF).
    assert (HB : forall e r, hermitian n (begun s e r)) by (intros e r; apply back_herm, hmat_herm).
    exists st, (fun x r f e => comps n (used_P order s e r x f)), (fun _ => MkS (fun _ _ _ => 0) (fun _ _ _ => 0) (fun _ _ _ => 0) (fun _ => 0)), (fun _ => MkF (fun _ _ _ => 0) (fun _ _ => 0) (fun _ _ => 0) (fun _ => 0)).
    assert (UP : forall x r f e, (r < q_nrhos s)%nat -> (f < n)%nat -> (e < q_ne s)%nat -> meq n (hmat n (comps n (used_P order s e r x f))) (used_P order s e r x f)).
    { intros x r f e Hr Hf He. apply hmat_comps. assert (K : hermitian n (stored_P order s r f)) by (apply ket_herm, Hf).
      unfold used_P, evolved. destruct (basis_of (o_basis (q_opts s))); try exact K; apply evolve_herm, K. }
    split; [exact UP|]. split.
    + intros x ie r _ Hi Hr. unfold solves_at.
      destruct (slope_terms order m emission tab GM s (hmat n) (hdot n) (hmat_repr n) FR HO OS P SH OO x b off dt st (fun r f e => comps n (used_P order s e r x f))
        (MkS (fun _ _ _ => 0) (fun _ _ _ => 0) (fun _ _ _ => 0) (fun _ => 0)) (MkF (fun _ _ _ => 0) (fun _ _ => 0) (fun _ _ => 0) (fun _ => 0)) ie r Hi Hr
        (fun r f e => UP x r f e)) as (EH & DH & A1 & A2 & A3).
      fold w g in EH, A1, A2, A3. fold n in DH, A1, A2, A3.
      assert (HM : seen order w (home s (hmat n) st x) = seen order w (sol x)).
      { apply functional_extensionality; intro r1. apply functional_extensionality; intro f1. apply functional_extensionality; intro e1. unfold seen.
        apply expect_meq; [apply meq_refl|]. unfold home. eapply meq_trans; [|apply back_rotated].
        assert (Y : forall T b H X Z, meq n X Z -> meq n (back b H T X) (back b H T Z)) by (intros T b1 H1 X Z E; destruct b1; cbn [back]; try exact E; apply evolve_meq, E).
        apply Y. apply MS. }
      rewrite HM in A2.
      pose proof (solution_solves order m emission w g P PO Q (SD b) (begun s) (sq_t (q_sq s)) x ie r Hi Hr) as DS. fold sol in DS.
      eapply (mderiv_ext n (fun u => F u ie r)); [intro u; apply meq_sym, MS|].
      eapply FlavorEqn.mderiv_meq; [apply meq_sym, rhs_meq; [exact A3|exact A1|exact A2|apply MS]|].
      unfold F, in_use. fold w g. fold sol. unfold change in DS. change (sg_leg g) with (Leg b off dt) in DS. change (l_shift (Leg b off dt)) with off in DS. change (ob_n w) with n in DS.
      destruct (basis_of (o_basis (q_opts s))); cbn [FullProofs.rotated].
      2:{ exact DS. }
      all: unfold full in DS; rewrite <- EH in DS; exact (change_of_basis n (stored_H s ie) _ _ _ (fun u => sol u ie r) (sq_t0 (q_sq s)) x DH DS).
    + intros ie r Hi Hr. split.
      * eapply meq_trans; [apply MS|]. unfold F, in_use. eapply meq_trans; [apply rotated_meq, (solution_start order m emission w g P Q (begun s) _ ie r Hi Hr (HB ie r))|].
        apply rotated_back.
      * eapply meq_trans; [|apply meq_sym, MS]. apply hdec_henc; [exact Hi|exact Hr|apply HF].
Qed.
End Integrator.
