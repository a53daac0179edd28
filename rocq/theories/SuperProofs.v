(** Norms, traces and linear combinations for SuperModel. *)
From Coq Require Import Reals List Arith Bool Lia Lra.
From Verif Require Import Err CMatrix FlavorModel FlavorProofs AvgProofs.
From Verif Require Import IntModel IntProofs IntProps SuperModel.
Local Open Scope R_scope.

(** ** The size of a matrix *)
Definition nrm (n : nat) (A : mat) : R := CMatrix.rsum n (fun i => CMatrix.rsum n (fun j => cnorm2 (A i j))).
Definition mminus (A B : mat) : mat := mplus A (mscale (-1) B).

Lemma nrm_pos n A : 0 <= nrm n A.
Proof. apply rsum_pos. intros. apply rsum_pos. intros. apply cnorm2_pos. Qed.
Lemma nrm_zero n A : nrm n A = 0 -> meq n A mzero.
Proof.
  intros Z i j I J. unfold nrm in Z.
  assert (P : forall i, (i < n)%nat -> 0 <= CMatrix.rsum n (fun j => cnorm2 (A i j))) by (intros; apply rsum_pos; intros; apply cnorm2_pos).
  pose proof (rsum_term n _ i I P) as Q. cbv beta in Q. rewrite Z in Q. pose proof (P i I) as P'.
  pose proof (rsum_term n (fun j => cnorm2 (A i j)) j J (fun k _ => cnorm2_pos _)) as W. cbv beta in W.
  pose proof (cnorm2_pos (A i j)) as V. assert (E : cnorm2 (A i j) = 0) by lra. unfold cnorm2 in E.
  apply Ceq; cbn; nra.
Qed.
Lemma nrm_meq n A B : meq n A B -> nrm n A = nrm n B.
Proof. intro E. apply CMatrix.rsum_ext. intros i I. apply CMatrix.rsum_ext. intros j J. rewrite (E i j I J). reflexivity. Qed.

Lemma nrm_deriv n (D : R -> mat) t D' : mderiv n D t D' ->
  derivable_pt_lim (fun s => nrm n (D s)) t (2 * re (trace n (mmult n (dagger (D t)) D'))).
Proof.
  intro H.
  replace (2 * re (trace n (mmult n (dagger (D t)) D'))) with
    (CMatrix.rsum n (fun i => CMatrix.rsum n (fun j => 2 * (re (D t i j) * re (D' i j) + im (D t i j) * im (D' i j))))).
  - apply (rsum_deriv n (fun i s => CMatrix.rsum n (fun j => cnorm2 (D s i j)))). intros i I.
    apply (rsum_deriv n (fun j s => cnorm2 (D s i j))). intros j J. destruct (H i j I J) as [A B]. unfold cnorm2.
    pose proof (derivable_pt_lim_mult _ _ _ _ _ A A) as AA. pose proof (derivable_pt_lim_mult _ _ _ _ _ B B) as BB.
    pose proof (derivable_pt_lim_plus _ _ _ _ _ AA BB) as P. unfold mult_fct, plus_fct in P.
    match type of P with derivable_pt_lim _ _ ?v => replace (2 * _) with v by ring end. exact P.
  - assert (E : re (trace n (mmult n (dagger (D t)) D')) =
      CMatrix.rsum n (fun i => CMatrix.rsum n (fun k => re (D t k i) * re (D' k i) + im (D t k i) * im (D' k i)))).
    { unfold trace, mmult. rewrite csum_re. apply CMatrix.rsum_ext. intros i I. rewrite csum_re.
      apply CMatrix.rsum_ext. intros k K. unfold dagger. cbn. ring. }
    rewrite E, (rsum_swap n n (fun i k => re (D t k i) * re (D' k i) + im (D t k i) * im (D' k i))), <- CMatrix.rsum_scal.
    apply CMatrix.rsum_ext. intros i I. cbv beta. rewrite <- CMatrix.rsum_scal. reflexivity.
Qed.

(** ** Traces *)
Definition psd (n : nat) (G : mat) : Prop := forall D, 0 <= re (trace n (mmult n (dagger D) (mmult n G D))).
Definition projector (n : nat) (P : mat) : Prop := hermitian n P /\ meq n (mmult n P P) P.

Lemma herm_trace n X : hermitian n X -> im (trace n X) = 0.
Proof. intro E. pose proof (trace_meq n _ _ E) as T. rewrite trace_dagger in T. apply (f_equal im) in T. cbn in T. lra. Qed.
Lemma sandwich_herm n H D : hermitian n H -> hermitian n (mmult n (dagger D) (mmult n H D)).
Proof.
  intro E. unfold hermitian. eapply meq_trans; [apply dagger_mult|].
  eapply meq_trans; [apply mmult_meq; [apply dagger_mult|apply dagger_dagger]|].
  eapply meq_trans; [apply mmult_assoc|]. apply mmult_meq; [apply meq_refl|]. apply mmult_meq; [exact E|apply meq_refl].
Qed.
(** Tr(D† (D H)) is the sandwich by the other side *)
Lemma trace_flip n H D : trace n (mmult n (dagger D) (mmult n D H)) = trace n (mmult n (dagger (dagger D)) (mmult n H (dagger D))).
Proof.
  rewrite trace_cycle. apply trace_meq. eapply meq_trans; [apply mmult_assoc|].
  apply mmult_meq; [apply meq_sym, dagger_dagger|apply meq_refl].
Qed.
Lemma coherent_still n H D : hermitian n H -> re (trace n (mmult n (dagger D) (coherent n H D))) = 0.
Proof.
  intro E.
  assert (A : trace n (mmult n (dagger D) (coherent n H D)) =
    cmult (mkC 0 (-1)) (cminus (trace n (mmult n (dagger D) (mmult n H D))) (trace n (mmult n (dagger D) (mmult n D H))))).
  { transitivity (trace n (fun i j => cmult (mkC 0 (-1)) (cminus (mmult n (dagger D) (mmult n H D) i j) (mmult n (dagger D) (mmult n D H) i j)))).
    - apply trace_meq. intros i j I J. unfold coherent. unfold mmult at 1.
      transitivity (cmult (mkC 0 (-1)) (csum n (fun k => cminus (cmult (dagger D i k) (mmult n H D k j)) (cmult (dagger D i k) (mmult n D H k j))))).
      + rewrite <- csum_mult_l. apply csum_ext. intros. apply Ceq; cbn; ring.
      + f_equal. unfold cminus. rewrite csum_plus. f_equal. unfold mmult at 2.
        rewrite (csum_ext n (fun i0 => copp _) (fun k => cmult (copp c1) (cmult (dagger D i k) (mmult n D H k j)))) by (intros; apply Ceq; cbn; ring).
        rewrite csum_mult_l. apply Ceq; cbn; ring.
    - unfold trace. rewrite csum_mult_l. f_equal. unfold cminus. rewrite csum_plus. f_equal.
      rewrite (csum_ext n (fun i => copp _) (fun k => cmult (copp c1) (mmult n (dagger D) (mmult n D H) k k))) by (intros; apply Ceq; cbn; ring).
      rewrite csum_mult_l. apply Ceq; cbn; ring. }
  rewrite A. pose proof (herm_trace n _ (sandwich_herm n H D E)) as U. rewrite trace_flip.
  pose proof (herm_trace n _ (sandwich_herm n H (dagger D) E)) as V. cbn. rewrite U, V. ring.
Qed.
Lemma anti_decays n G D : psd n G -> 0 <= re (trace n (mmult n (dagger D) (anti n G D))).
Proof.
  intro P. unfold anti. rewrite (trace_meq n _ _ (mmult_plus_r n _ _ _)), trace_plus. cbn [re cplus].
  rewrite trace_flip. pose proof (P D). pose proof (P (dagger D)). lra.
Qed.

Lemma psd_zero n : psd n mzero.
Proof.
  intro D. rewrite (trace_meq n _ mzero).
  - unfold trace. rewrite csum_zero; [cbn; lra|reflexivity].
  - intros i j I J. unfold mmult at 1. apply csum_zero. intros k K.
    replace (mmult n mzero D k j) with c0; [apply Ceq; cbn; ring|]. symmetry. apply csum_zero. intros. apply Ceq; cbn; ring.
Qed.
Lemma psd_plus n A B : psd n A -> psd n B -> psd n (mplus A B).
Proof.
  intros P Q D. rewrite (trace_meq n _ (mplus (mmult n (dagger D) (mmult n A D)) (mmult n (dagger D) (mmult n B D)))).
  - rewrite trace_plus. cbn [re cplus]. pose proof (P D). pose proof (Q D). lra.
  - eapply meq_trans; [apply mmult_meq; [apply meq_refl|apply mmult_plus_l]|]. apply mmult_plus_r.
Qed.
Lemma psd_scale n x A : 0 <= x -> psd n A -> psd n (mscale x A).
Proof.
  intros X P D. rewrite (trace_meq n _ (mscale x (mmult n (dagger D) (mmult n A D)))).
  - rewrite trace_scale. cbn. pose proof (P D). nra.
  - eapply meq_trans; [apply mmult_meq; [apply meq_refl|apply mmult_scale_l]|]. apply mmult_scale_r.
Qed.
Lemma psd_meq n A B : meq n A B -> psd n A -> psd n B.
Proof.
  intros E P D. rewrite <- (trace_meq n (mmult n (dagger D) (mmult n A D))); [apply P|].
  apply mmult_meq; [apply meq_refl|]. apply mmult_meq; [exact E|apply meq_refl].
Qed.
Lemma psd_projector n P : projector n P -> psd n P.
Proof.
  intros [H I] D.
  rewrite (trace_meq n _ (mmult n (dagger (mmult n P D)) (mmult n P D))).
  - unfold trace. rewrite csum_re. apply rsum_pos. intros i Hi. unfold mmult at 1. rewrite csum_re. apply rsum_pos. intros k Hk.
    unfold dagger. cbn. set (a := mmult n P D k i). pose proof (cnorm2_pos a). unfold cnorm2 in *. lra.
  - apply meq_sym. eapply meq_trans; [apply mmult_meq; [apply dagger_mult|apply meq_refl]|].
    eapply meq_trans; [apply mmult_assoc|]. apply mmult_meq; [apply meq_refl|].
    eapply meq_trans; [apply meq_sym, mmult_assoc|]. apply mmult_meq; [|apply meq_refl].
    eapply meq_trans; [apply mmult_meq; [exact H|apply meq_refl]|exact I].
Qed.

(** ** The difference of two solutions *)
Lemma mderiv_minus n A B t A' B' : mderiv n A t A' -> mderiv n B t B' -> mderiv n (fun s => mminus (A s) (B s)) t (mminus A' B').
Proof.
  intros P Q i j I J. destruct (P i j I J) as [P1 P2]. destruct (Q i j I J) as [Q1 Q2]. split.
  - pose proof (derivable_pt_lim_minus _ _ _ _ _ P1 Q1) as Z. unfold minus_fct in Z.
    replace (re (mminus A' B' i j)) with (re (A' i j) - re (B' i j)) by (cbn; ring).
    intros eps He. destruct (Z eps He) as [d Hd]. exists d. intros h H0 H1. cbn. specialize (Hd h H0 H1).
    match goal with |- Rabs ?x < _ => match type of Hd with Rabs ?y < _ => replace x with y by (field; exact H0) end end. exact Hd.
  - pose proof (derivable_pt_lim_minus _ _ _ _ _ P2 Q2) as Z. unfold minus_fct in Z.
    replace (im (mminus A' B' i j)) with (im (A' i j) - im (B' i j)) by (cbn; ring).
    intros eps He. destruct (Z eps He) as [d Hd]. exists d. intros h H0 H1. cbn. specialize (Hd h H0 H1).
    match goal with |- Rabs ?x < _ => match type of Hd with Rabs ?y < _ => replace x with y by (field; exact H0) end end. exact Hd.
Qed.
Lemma mderiv_meq n A t D D' : meq n D D' -> mderiv n A t D -> mderiv n A t D'.
Proof. intros E P i j I J. rewrite <- (E i j I J). apply P; assumption. Qed.

Lemma mmult_minus_l n A B D : meq n (mmult n (mminus A B) D) (mminus (mmult n A D) (mmult n B D)).
Proof. eapply meq_trans; [apply mmult_plus_l|]. apply mplus_meq; [apply meq_refl|apply mmult_scale_l]. Qed.
Lemma mmult_minus_r n A B D : meq n (mmult n D (mminus A B)) (mminus (mmult n D A) (mmult n D B)).
Proof. eapply meq_trans; [apply mmult_plus_r|]. apply mplus_meq; [apply meq_refl|apply mmult_scale_r]. Qed.

Lemma rhs_minus n H G I A B : meq n (mminus (rhs n H G I A) (rhs n H G I B)) (rhs n H G mzero (mminus A B)).
Proof.
  intros i j Hi Hj. unfold rhs, coherent, anti, mplus, mscale. unfold mminus at 1. unfold mplus, mscale.
  rewrite (mmult_minus_r n A B H i j Hi Hj), (mmult_minus_l n A B H i j Hi Hj), (mmult_minus_r n A B G i j Hi Hj), (mmult_minus_l n A B G i j Hi Hj).
  unfold mminus, mplus, mscale, mzero. apply Ceq; cbn; ring.
Qed.

(** Without gain the size of a solution does not grow. *)
Lemma nrm_rate n H G D : hermitian n H -> psd n G -> re (trace n (mmult n (dagger D) (rhs n H G mzero D))) <= 0.
Proof.
  intros E P. unfold rhs.
  assert (X : meq n (mmult n (dagger D) (mplus (mplus (coherent n H D) (mscale (-1) (anti n G D))) mzero))
    (mplus (mmult n (dagger D) (coherent n H D)) (mscale (-1) (mmult n (dagger D) (anti n G D))))).
  { eapply meq_trans; [apply mmult_plus_r|]. intros i j I J. unfold mplus at 1.
    replace (mmult n (dagger D) mzero i j) with c0 by (symmetry; apply csum_zero; intros; apply Ceq; cbn; ring).
    rewrite (mmult_plus_r n _ _ _ i j I J). unfold mplus. rewrite (mmult_scale_r n _ _ _ i j I J). apply Ceq; cbn; ring. }
  rewrite (trace_meq n _ _ X), trace_plus, trace_scale. cbn [re cplus].
  rewrite (coherent_still n H D E). pose proof (anti_decays n G D P). cbn. lra.
Qed.

Lemma nrm_decreases n (A : R -> mat) H G t0 t1 : t0 <= t1 ->
  (forall s, t0 <= s <= t1 -> hermitian n (H s) /\ psd n (G s) /\ mderiv n A s (rhs n (H s) (G s) mzero (A s))) ->
  nrm n (A t1) <= nrm n (A t0).
Proof.
  intros L D. destruct (Req_dec t0 t1) as [->|N]; [lra|].
  destruct (MVT_cor2 (fun s => nrm n (A s)) (fun s => 2 * re (trace n (mmult n (dagger (A s)) (rhs n (H s) (G s) mzero (A s))))) t0 t1) as (c & E & C).
  - lra.
  - intros s S. destruct (D s S) as (_ & _ & M). apply nrm_deriv, M.
  - cbv beta in E. destruct (D c) as (Hh & Hg & _); [lra|]. pose proof (nrm_rate n (H c) (G c) (A c) Hh Hg). nra.
Qed.

Lemma same_solution n (A B : R -> mat) H G I J t0 t1 : t0 <= t1 ->
  (forall s, t0 <= s <= t1 -> hermitian n (H s) /\ psd n (G s) /\ meq n (I s) (J s) /\
     mderiv n A s (rhs n (H s) (G s) (I s) (A s)) /\ mderiv n B s (rhs n (H s) (G s) (J s) (B s))) ->
  meq n (A t0) (B t0) -> forall s, t0 <= s <= t1 -> meq n (A s) (B s).
Proof.
  intros L D E s S.
  assert (Z : nrm n (mminus (A s) (B s)) = 0).
  { apply Rle_antisym; [|apply nrm_pos].
    replace 0 with (nrm n (mminus (A t0) (B t0))).
    - apply (nrm_decreases n (fun u => mminus (A u) (B u)) H G t0 s); [lra|]. intros u U.
      destruct (D u) as (Hh & Hg & IJ & DA & DB); [lra|]. split; [exact Hh|]. split; [exact Hg|].
      eapply mderiv_meq; [apply (rhs_minus n (H u) (G u) (I u))|]. apply mderiv_minus; [exact DA|].
      eapply mderiv_meq; [|exact DB]. unfold rhs. apply mplus_meq; [apply meq_refl|apply meq_sym, IJ].
    - rewrite (nrm_meq n _ mzero).
      + unfold nrm. rewrite (CMatrix.rsum_ext n _ (fun _ => 0 * 0)).
        * rewrite CMatrix.rsum_scal. ring.
        * intros. rewrite (CMatrix.rsum_ext n _ (fun _ => 0 * 0)); [rewrite CMatrix.rsum_scal; ring|]. intros. unfold cnorm2. cbn. ring.
      + intros i j Hi Hj. unfold mminus, mplus, mscale, mzero. rewrite (E i j Hi Hj). apply Ceq; cbn; ring. }
  apply nrm_zero in Z. intros i j Hi Hj. specialize (Z i j Hi Hj). unfold mminus, mplus, mscale, mzero in Z.
  apply Ceq; [apply (f_equal re) in Z|apply (f_equal im) in Z]; cbn in Z; lra.
Qed.
