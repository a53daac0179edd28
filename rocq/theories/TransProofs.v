(** Coherent evolutions: transposed, conjugated, rescaled and paired with one another. *)
From Coq Require Import Reals List Arith Bool Lia Lra.
From Verif Require Import CMatrix FlavorModel FlavorProofs FlavorProps FlavorEqn FlavorEqnProps AvgProofs SuperProofs PosProofs.
Import ListNotations.
Local Open Scope R_scope.

Definition transp (A : mat) : mat := fun i j => A j i.
Definition conjm (A : mat) : mat := fun i j => cconj (A i j).

Lemma rhs_zero n H A : meq n (rhs n H mzero mzero A) (coherent n H A).
Proof.
  intros i j Hi Hj. unfold rhs, mplus, mscale, anti, mplus.
  assert (Z1 : mmult n mzero A i j = c0) by (apply csum_zero; intros k _; unfold mzero; ring).
  assert (Z2 : mmult n A mzero i j = c0) by (apply csum_zero; intros k _; unfold mzero; ring).
  rewrite Z1, Z2. unfold mzero. apply Ceq; cbn; ring.
Qed.
Lemma coherent_meq n H H' A A' : meq n H H' -> meq n A A' -> meq n (coherent n H A) (coherent n H' A').
Proof.
  intros E F i j Hi Hj. unfold coherent. rewrite (mmult_meq n _ _ _ _ E F i j Hi Hj), (mmult_meq n _ _ _ _ F E i j Hi Hj). reflexivity.
Qed.
Lemma rhs_meq n H H' G G' I I' A A' : meq n H H' -> meq n G G' -> meq n I I' -> meq n A A' -> meq n (rhs n H G I A) (rhs n H' G' I' A').
Proof.
  intros EH EG EI EA. unfold rhs, anti. repeat apply mplus_meq; try assumption.
  - apply coherent_meq; assumption.
  - apply mscale_meq, mplus_meq; apply mmult_meq; assumption.
Qed.
Lemma mmult_transp n A B i j : mmult n (transp A) (transp B) i j = mmult n B A j i.
Proof. unfold mmult, transp. apply csum_ext. intros k _. ring. Qed.
Lemma coherent_transp n H A : meq n (transp (coherent n H A)) (mscale (-1) (coherent n (transp H) (transp A))).
Proof. intros i j _ _. unfold mscale, coherent. rewrite !mmult_transp. unfold transp, coherent, cminus. apply Ceq; cbn; ring. Qed.
Lemma mmult_conjm n A B i j : mmult n (conjm A) (conjm B) i j = cconj (mmult n A B i j).
Proof. unfold mmult, conjm. rewrite csum_conj. apply csum_ext. intros k _. rewrite conj_mult. reflexivity. Qed.
Lemma coherent_scale n x H A : meq n (coherent n (mscale x H) A) (mscale x (coherent n H A)).
Proof.
  intros i j Hi Hj. unfold coherent. rewrite (mmult_scale_l n x H A i j Hi Hj), (mmult_scale_r n x H A i j Hi Hj).
  unfold mscale, cminus. apply Ceq; cbn; ring.
Qed.
Lemma coherent_conjm n H A : meq n (conjm (coherent n H A)) (coherent n (mscale (-1) (conjm H)) (conjm A)).
Proof.
  intros i j Hi Hj. rewrite (coherent_scale n (-1) (conjm H) (conjm A) i j Hi Hj). unfold mscale, coherent.
  rewrite !mmult_conjm. unfold conjm, coherent, cminus. apply Ceq; cbn; ring.
Qed.
Lemma coherent_plus n H K A : meq n (coherent n (mplus H K) A) (mplus (coherent n H A) (coherent n K A)).
Proof.
  intros i j Hi Hj. unfold coherent. rewrite (mmult_plus_l n H K A i j Hi Hj), (mmult_plus_r n H K A i j Hi Hj).
  unfold mplus, cminus. apply Ceq; cbn; ring.
Qed.
Lemma coherent_id n x A : meq n (coherent n (mscale x mid) A) mzero.
Proof.
  intros i j Hi Hj. rewrite (coherent_scale n x mid A i j Hi Hj). unfold mscale, coherent.
  rewrite (mmult_id_l n A i j Hi Hj), (mmult_id_r n A i j Hi Hj). unfold mzero, cminus. apply Ceq; cbn; ring.
Qed.
Lemma coherent_of_id n H : meq n (coherent n H mid) mzero.
Proof.
  intros i j Hi Hj. unfold coherent.
  rewrite (mmult_id_l n H i j Hi Hj), (mmult_id_r n H i j Hi Hj). unfold mzero, cminus. apply Ceq; cbn; ring.
Qed.
Lemma coherent_lin_r n H a A b B : meq n (coherent n H (mplus (mscale a A) (mscale b B)))
  (mplus (mscale a (coherent n H A)) (mscale b (coherent n H B))).
Proof.
  intros i j Hi Hj. unfold coherent.
  rewrite (mmult_plus_l n _ _ H i j Hi Hj), (mmult_plus_r n _ _ H i j Hi Hj). unfold mplus.
  rewrite (mmult_scale_l n a A H i j Hi Hj), (mmult_scale_l n b B H i j Hi Hj), (mmult_scale_r n a A H i j Hi Hj), (mmult_scale_r n b B H i j Hi Hj).
  unfold mscale, cminus. apply Ceq; cbn; ring.
Qed.
Lemma coherent_msum n H m (c : nat -> R) (A : nat -> mat) :
  meq n (coherent n H (msum m (fun j => mscale (c j) (A j)))) (msum m (fun j => mscale (c j) (coherent n H (A j)))).
Proof.
  induction m as [|m IH]; cbn [msum].
  - intros i j Hi Hj. unfold coherent. unfold mmult. rewrite !csum_zero; [unfold mzero, cminus; apply Ceq; cbn; ring|..]; intros; unfold mzero; ring.
  - eapply meq_trans; [apply (coherent_meq n H H _ (mplus (mscale 1 (msum m (fun j => mscale (c j) (A j)))) (mscale (c m) (A m)))); [apply meq_refl|]|].
    { intros i j _ _. unfold mplus, mscale. apply Ceq; cbn; ring. }
    eapply meq_trans; [apply coherent_lin_r|]. apply mplus_meq; [|apply meq_refl].
    eapply meq_trans; [|exact IH]. intros i j _ _. unfold mscale. apply Ceq; cbn; ring.
Qed.

(** ** Derivatives *)
Lemma lim_ext f g t l : (forall x, f x = g x) -> derivable_pt_lim f t l -> derivable_pt_lim g t l.
Proof. intros E D eps He. destruct (D eps He) as [d Hd]. exists d. intros h H0 H1. rewrite <- !E. apply Hd; assumption. Qed.
Lemma lim_reflect f c t l : derivable_pt_lim f (c - t) l -> derivable_pt_lim (fun u => f (c - u)) t (-1 * l).
Proof.
  intro D. replace (-1 * l) with (l * (0 - 1)) by ring.
  apply (derivable_pt_lim_comp (fun u => c - u) f); [|exact D].
  apply (derivable_pt_lim_minus (fun _ => c) (fun u => u)); [apply derivable_pt_lim_const|apply derivable_pt_lim_id].
Qed.
Lemma lim_rescale f t0 x t l : derivable_pt_lim f (t0 + (t - t0) * x) l -> derivable_pt_lim (fun u => f (t0 + (u - t0) * x)) t (x * l).
Proof.
  intro D. replace (x * l) with (l * (0 + x * (1 - 0))) by ring.
  apply (derivable_pt_lim_comp (fun u => t0 + (u - t0) * x) f); [|exact D].
  apply (derivable_pt_lim_plus (fun _ => t0) (fun u => (u - t0) * x)); [apply derivable_pt_lim_const|].
  apply (lim_ext (fun u => x * (u - t0))); [intro; ring|]. apply (derivable_pt_lim_scal (fun u => u - t0)).
  apply (derivable_pt_lim_minus (fun u => u) (fun _ => t0)); [apply derivable_pt_lim_id|apply derivable_pt_lim_const].
Qed.
Lemma mderiv_reflect n A c t D : mderiv n A (c - t) D -> mderiv n (fun u => A (c - u)) t (mscale (-1) D).
Proof.
  intros M i j Hi Hj. destruct (M i j Hi Hj) as [P Q]. split.
  - replace (re (mscale (-1) D i j)) with (-1 * re (D i j)) by (cbn; ring). apply (lim_reflect (fun u => re (A u i j))). exact P.
  - replace (im (mscale (-1) D i j)) with (-1 * im (D i j)) by (cbn; ring). apply (lim_reflect (fun u => im (A u i j))). exact Q.
Qed.
Lemma mderiv_rescale n A t0 x t D : mderiv n A (t0 + (t - t0) * x) D -> mderiv n (fun u => A (t0 + (u - t0) * x)) t (mscale x D).
Proof.
  intros M i j Hi Hj. destruct (M i j Hi Hj) as [P Q]. split.
  - replace (re (mscale x D i j)) with (x * re (D i j)) by (cbn; ring). apply (lim_rescale (fun u => re (A u i j))). exact P.
  - replace (im (mscale x D i j)) with (x * im (D i j)) by (cbn; ring). apply (lim_rescale (fun u => im (A u i j))). exact Q.
Qed.
Lemma mderiv_transp n A t D : mderiv n A t D -> mderiv n (fun u => transp (A u)) t (transp D).
Proof. intros M i j Hi Hj. exact (M j i Hj Hi). Qed.
Lemma mderiv_conjm n A t D : mderiv n A t D -> mderiv n (fun u => conjm (A u)) t (conjm D).
Proof.
  intros M i j Hi Hj. destruct (M i j Hi Hj) as [P Q]. split; [exact P|].
  unfold conjm, cconj. cbn [im]. apply (derivable_pt_lim_opp (fun u => im (A u i j))). exact Q.
Qed.
Lemma mderiv_ext n A B t D : (forall s, meq n (A s) (B s)) -> mderiv n A t D -> mderiv n B t D.
Proof.
  intros E M i j Hi Hj. destruct (M i j Hi Hj) as [P Q]. split.
  - apply (lim_ext (fun s => re (A s i j))); [|exact P]. intro x. rewrite (E x i j Hi Hj). reflexivity.
  - apply (lim_ext (fun s => im (A s i j))); [|exact Q]. intro x. rewrite (E x i j Hi Hj). reflexivity.
Qed.
Lemma mderiv_msum n m (c : nat -> R) (A : nat -> R -> mat) (D : nat -> mat) t : (forall j, (j < m)%nat -> mderiv n (A j) t (D j)) ->
  mderiv n (fun s => msum m (fun j => mscale (c j) (A j s))) t (msum m (fun j => mscale (c j) (D j))).
Proof.
  intros M i j Hi Hj. rewrite msum_at, csum_re, csum_im. split.
  - apply (lim_ext (fun s => CMatrix.rsum m (fun k => re (mscale (c k) (A k s) i j)))); [intro; rewrite msum_at, csum_re; reflexivity|].
    apply (rsum_deriv m (fun k s => re (mscale (c k) (A k s) i j))). intros k Hk. destruct (M k Hk i j Hi Hj) as [P _].
    replace (re (mscale (c k) (D k) i j)) with (c k * re (D k i j)) by (cbn; ring).
    apply (lim_ext (fun s => c k * re (A k s i j))); [intro; cbn; ring|]. apply (derivable_pt_lim_scal (fun s => re (A k s i j))). exact P.
  - apply (lim_ext (fun s => CMatrix.rsum m (fun k => im (mscale (c k) (A k s) i j)))); [intro; rewrite msum_at, csum_im; reflexivity|].
    apply (rsum_deriv m (fun k s => im (mscale (c k) (A k s) i j))). intros k Hk. destruct (M k Hk i j Hi Hj) as [_ Q].
    replace (im (mscale (c k) (D k) i j)) with (c k * im (D k i j)) by (cbn; ring).
    apply (lim_ext (fun s => c k * im (A k s i j))); [intro; cbn; ring|]. apply (derivable_pt_lim_scal (fun s => im (A k s i j))). exact Q.
Qed.

(** ** Two evolutions of one Hamiltonian: their product has constant trace *)
Lemma pair_rate n H A B : trace n (mplus (mmult n (coherent n H A) B) (mmult n A (coherent n H B))) = c0.
Proof.
  assert (X : meq n (mplus (mmult n (coherent n H A) B) (mmult n A (coherent n H B))) (coherent n H (mmult n A B))).
  { assert (L : meq n (mmult n (coherent n H A) B)
        (fun i j => cmult (mkC 0 (-1)) (cminus (mmult n H (mmult n A B) i j) (mmult n A (mmult n H B) i j)))).
    { intros i j Hi Hj. rewrite <- (mmult_assoc n H A B i j Hi Hj), <- (mmult_assoc n A H B i j Hi Hj).
      unfold mmult at 1 2 4. unfold coherent. unfold cminus.
      replace (copp (csum n (fun k => cmult (mmult n A H i k) (B k j)))) with (cmult (mkC (-1) 0) (csum n (fun k => cmult (mmult n A H i k) (B k j)))) by (apply Ceq; cbn; ring).
      rewrite <- csum_mult_l, <- csum_plus, <- csum_mult_l. apply csum_ext. intros k _. apply Ceq; cbn; ring. }
    assert (R' : meq n (mmult n A (coherent n H B))
        (fun i j => cmult (mkC 0 (-1)) (cminus (mmult n A (mmult n H B) i j) (mmult n (mmult n A B) H i j)))).
    { intros i j Hi Hj. rewrite (mmult_assoc n A B H i j Hi Hj).
      unfold mmult at 1 2 4. unfold coherent. unfold cminus.
      replace (copp (csum n (fun k => cmult (A i k) (mmult n B H k j)))) with (cmult (mkC (-1) 0) (csum n (fun k => cmult (A i k) (mmult n B H k j)))) by (apply Ceq; cbn; ring).
      rewrite <- csum_mult_l, <- csum_plus, <- csum_mult_l. apply csum_ext. intros k _. apply Ceq; cbn; ring. }
    intros i j Hi Hj. unfold mplus. rewrite (L i j Hi Hj), (R' i j Hi Hj). unfold coherent, cminus. apply Ceq; cbn; ring. }
  rewrite (trace_meq n _ _ X). apply coherent_trace.
Qed.
Lemma pair_still n (H A B : R -> mat) t0 t1 : t0 <= t1 ->
  (forall s, t0 <= s <= t1 -> mderiv n A s (coherent n (H s) (A s)) /\ mderiv n B s (coherent n (H s) (B s))) ->
  re (trace n (mmult n (A t1) (B t1))) = re (trace n (mmult n (A t0) (B t0))).
Proof.
  intros L D. destruct (Rle_lt_or_eq_dec t0 t1 L) as [Lt|Eq]; [|rewrite Eq; reflexivity].
  destruct (MVT_cor2 (fun s => re (trace n (mmult n (A s) (B s)))) (fun _ => 0) t0 t1 Lt) as (c & E & _); [|lra].
  intros s S. destruct (D s S) as [DA DB].
  pose proof (trace_deriv n _ s _ (mderiv_mult n A B s _ _ DA DB)) as T. rewrite pair_rate in T. exact T.
Qed.

(** ** Projectors of one mixing matrix and of its conjugate *)
Lemma evolve_neg n H t A : meq n (evolve (mscale (-1) H) t A) (evolve H (- t) A).
Proof.
  intros i j _ _. unfold evolve, mscale. cbn. f_equal. f_equal. ring.
Qed.
Lemma evolve_diag n H t K : diag_real n K -> meq n (evolve H t K) K.
Proof.
  intros D i j Hi Hj. unfold evolve. destruct (Nat.eq_dec i j) as [->|N].
  - replace ((re (H j j) - re (H j j)) * t) with 0 by ring. rewrite cexp_0. ring.
  - rewrite (D i j Hi Hj), (proj2 (Nat.eqb_neq i j) N). ring.
Qed.
Lemma diag_neg n H : diag_real n H -> diag_real n (mscale (-1) H).
Proof.
  intros D i j Hi Hj. unfold mscale. rewrite (D i j Hi Hj). destruct (Nat.eqb i j); [apply Ceq; cbn; ring|ring].
Qed.

(** back from the interaction basis to the mass basis *)
Lemma back_to_mass n H Q (rho : R -> mat) t0 t : diag_real n H ->
  mderiv n rho t (coherent n (evolve H (t - t0) Q) (rho t)) ->
  mderiv n (fun s => evolve H (- (s - t0)) (rho s)) t (coherent n (mplus Q H) (evolve H (- (t - t0)) (rho t))).
Proof.
  intros D M. set (K := mscale (-1) H).
  assert (M' : mderiv n rho t (rhs n (mplus (mplus (evolve H (t - t0) Q) H) K) mzero mzero (rho t))).
  { eapply mderiv_meq; [|exact M]. apply meq_sym. eapply meq_trans; [apply rhs_zero|]. apply coherent_meq; [|apply meq_refl].
    intros i j _ _. unfold K, mplus, mscale. apply Ceq; cbn; ring. }
  pose proof (change_of_basis n K _ _ _ rho t0 t (diag_neg n H D) M') as X.
  assert (Y : mderiv n (fun s => evolve K (s - t0) (rho s)) t (coherent n (mplus Q H) (evolve H (- (t - t0)) (rho t)))).
  { eapply mderiv_meq; [|exact X].
    assert (Z : meq n (evolve K (t - t0) mzero) mzero) by apply evolve_zero.
    assert (W : meq n (evolve K (t - t0) (mplus (evolve H (t - t0) Q) H)) (mplus Q H)).
    { eapply meq_trans; [apply evolve_neg|]. eapply meq_trans; [apply evolve_plus|]. apply mplus_meq; [|apply evolve_diag, D].
      intros a b _ _. unfold evolve. replace (cexp ((re (H a a) - re (H b b)) * - (t - t0)) * (cexp ((re (H a a) - re (H b b)) * (t - t0)) * Q a b))%C
        with ((cexp ((re (H a a) - re (H b b)) * - (t - t0)) * cexp ((re (H a a) - re (H b b)) * (t - t0))) * Q a b)%C by ring.
      rewrite cexp_plus. replace ((re (H a a) - re (H b b)) * - (t - t0) + (re (H a a) - re (H b b)) * (t - t0)) with 0 by ring. rewrite cexp_0. ring. }
    eapply meq_trans; [apply (rhs_meq n _ _ _ _ _ _ _ _ W Z Z (evolve_neg n H (t - t0) (rho t)))|]. apply rhs_zero. }
  eapply mderiv_ext; [|exact Y]. intro s. apply evolve_neg.
Qed.
