(** C90: the evolution of given fluxes is determined, and fluxes evolve
    independently of each other. *)
From Coq Require Import Reals List Arith Bool Lia Lra.
From Verif Require Import Err CMatrix FlavorModel FlavorProofs AvgProofs.
From Verif Require Import TauModel XsModel XsProofs IntModel IntProofs IntLayoutProofs IntProps SuperModel SuperProofs.
Import ListNotations.
Local Open Scope R_scope.

(** ** The factors *)
Lemma factor_ext c t s flux flux' r f e : shaped c -> (r < c_nrhos c)%nat -> (f < 3)%nat ->
  (forall r f e2, (r < c_nrhos c)%nat -> (f < 3)%nat -> (e < e2 < c_ne c)%nat -> flux r f e2 = flux' r f e2) ->
  factor c t s flux r f e = factor c t s flux' r f e.
Proof.
  intros Hs Hr Hf H. destruct Hs as (Hb & Hn & Ht & _). unfold factor. f_equal; [f_equal|].
  - apply rsum_ext. intros e2 He2. rewrite H by (assumption || lia). reflexivity.
  - destruct (c_tau c) eqn:Et; [|reflexivity]. assert (N : c_nrhos c = 2%nat) by (apply Hb, Ht; reflexivity).
    assert (T : forall r et, (r < 2)%nat -> (e < et)%nat -> tau_flux c t s flux r et = tau_flux c t s flux' r et).
    { intros r0 et Hr0 Het. apply rsum_ext. intros en Hen. unfold tau_skip. rewrite !H by (rewrite ?N; lia). reflexivity. }
    destruct (Nat.eqb f 2); apply rsum_ext; intros et Het; rewrite T by lia; reflexivity.
  - destruct (c_gr c && is_anti (c_nt c) r)%bool; [|reflexivity].
    apply rsum_ext. intros e2 He2. rewrite H by (assumption || lia). reflexivity.
Qed.

(** The test before the taus are counted leaves out nothing: at every node a tau flux is
    positive, or both are zero. *)
Definition tau_fair (c : iconf) (flux : nat -> nat -> nat -> R) : Prop := c_tau c = true -> forall e, (e < c_ne c)%nat ->
  0 < flux 0%nat 2%nat e \/ 0 < flux 1%nat 2%nat e \/ (flux 0%nat 2%nat e = 0 /\ flux 1%nat 2%nat e = 0).

Lemma tau_flux_all c t s flux r et : c_tau c = true -> tau_fair c flux -> (r < 2)%nat ->
  tau_flux c t s flux r et = rsum (S et) (c_ne c) (fun en => rsum 0 (length (c_dens c)) (fun trg =>
    flux r 2%nat en * s_CC s r 2%nat en * c_delE c (en - 1) * fr c trg * t_dCC t trg r 2 en et * c_delE c (et - 1))).
Proof.
  intros T F Hr. unfold tau_flux. apply rsum_ext. intros en Hen. unfold tau_skip.
  destruct (F T en ltac:(lia)) as [P|[P|[P Q]]].
  - rewrite (rle_false _ _ P). reflexivity.
  - rewrite (rle_false (flux 1%nat 2%nat en) 0 P), andb_false_r. reflexivity.
  - destruct (rle _ 0 && rle _ 0)%bool; [|reflexivity]. symmetry. apply rsum_zero. intros g _.
    destruct r as [|[|r]]; [rewrite P|rewrite Q|lia]; ring.
Qed.

Lemma rsum_lin lo hi a b f g h : (forall i, (lo <= i < hi)%nat -> h i = a * f i + b * g i) ->
  rsum lo hi h = a * rsum lo hi f + b * rsum lo hi g.
Proof. intro E. rewrite <- !rsum_scal, <- rsum_plus. apply rsum_ext. exact E. Qed.

Lemma factor_lin c t s f1 f2 f3 a b r f e : shaped c -> (r < c_nrhos c)%nat -> (f < 3)%nat ->
  tau_fair c f1 -> tau_fair c f2 -> tau_fair c f3 ->
  (forall r f e, (r < c_nrhos c)%nat -> (f < 3)%nat -> (e < c_ne c)%nat -> f3 r f e = a * f1 r f e + b * f2 r f e) ->
  factor c t s f3 r f e = a * factor c t s f1 r f e + b * factor c t s f2 r f e.
Proof.
  intros Hs Hr Hf F1 F2 F3 H. destruct Hs as (Hb & Hn & Ht & _). unfold factor.
  assert (A : nc_source c t s f3 r f e = a * nc_source c t s f1 r f e + b * nc_source c t s f2 r f e).
  { unfold nc_source. apply rsum_lin. intros e2 He2. apply rsum_lin. intros g _. rewrite H by (assumption || lia). ring. }
  assert (B : (if c_tau c then if Nat.eqb f 2 then had_source c t s f3 r e else lep_source c t s f3 (1 - r) e else 0) =
    a * (if c_tau c then if Nat.eqb f 2 then had_source c t s f1 r e else lep_source c t s f1 (1 - r) e else 0) +
    b * (if c_tau c then if Nat.eqb f 2 then had_source c t s f2 r e else lep_source c t s f2 (1 - r) e else 0)).
  { destruct (c_tau c) eqn:Et; [|ring]. assert (N : c_nrhos c = 2%nat) by (apply Hb, Ht; reflexivity).
    assert (T : forall r et, (r < 2)%nat -> tau_flux c t s f3 r et = a * tau_flux c t s f1 r et + b * tau_flux c t s f2 r et).
    { intros r0 et Hr0. rewrite !tau_flux_all by assumption. apply rsum_lin. intros en Hen. apply rsum_lin. intros g _.
      rewrite H by (rewrite ?N; lia). ring. }
    destruct (Nat.eqb f 2); apply rsum_lin; intros et Het; rewrite T by lia; ring. }
  assert (D : (if c_gr c && is_anti (c_nt c) r then gr_source c t s f3 r e else 0) =
    a * (if c_gr c && is_anti (c_nt c) r then gr_source c t s f1 r e else 0) + b * (if c_gr c && is_anti (c_nt c) r then gr_source c t s f2 r e else 0)).
  { destruct (c_gr c && is_anti (c_nt c) r)%bool; [|ring]. unfold gr_source. apply rsum_lin. intros e2 He2.
    rewrite H by (assumption || lia). ring. }
  rewrite A, B, D. ring.
Qed.

(** Fluxes, as the regeneration takes them: projectors of the node, or of the first one
    without oscillations. *)
Definition flux_of (osc : bool) (dot : vec -> vec -> R) (proj : nat -> nat -> nat -> vec) (st : nat -> nat -> vec) (r f e : nat) : R :=
  if osc then fluxe dot proj st r f e else flux0 dot proj st r f e.

Definition sources_at (proj : nat -> nat -> nat -> vec) (c : iconf) (r e k : nat) : R :=
  rsum 0 (c_numneu c) (fun i => c_ext c e r i * proj r i e k).

(** The regeneration in closed form, in every mode. *)
Lemma regeneration_eq dot inter osc tb rne proj st c old fold e r k : shaped c -> (c_ne c <= rne)%nat -> (r < c_nrhos c)%nat -> (e < c_ne c)%nat ->
  regeneration dot inter osc tb rne proj st c old fold e r k =
  (if inter then rsum 0 3 (fun f => factor c tb (update_lengths c tb old) (flux_of osc dot proj st) r f e * proj r f (if osc then e else 0%nat) k) else 0)
  + (if c_src c then (if inter && negb osc then INR (c_nrhos c) else 1) * sources_at proj c r e k else 0).
Proof.
  intros Hs Hn Hr He. unfold regeneration, IntModel.interactions_rho, flux_of, sources_at. destruct inter, osc; cbn [andb negb].
  - change (fun r f e => fluxe dot proj st r f e) with (fluxe dot proj st). rewrite interactions_osc_eq by assumption. unfold src_vec. destruct (c_src c); ring.
  - change (fun r f e => flux0 dot proj st r f e) with (flux0 dot proj st). rewrite cache_noosc_eq by assumption. unfold src_vec. destruct (c_src c); ring.
  - destruct (c_src c); cbn [negb]; [|unfold vzero; ring]. destruct Hs as (_ & _ & _ & H3). rewrite sources_only_eq by lia. unfold src_vec. ring.
  - destruct (c_src c); cbn [negb]; [|unfold vzero; ring]. destruct Hs as (_ & _ & _ & H3). rewrite sources_only_eq by lia. unfold src_vec. ring.
Qed.

(** *** Fluxes add: the term of a combination of states and sources is the combination of the terms *)
Theorem c90_additive dot inter osc tb rne proj st1 st2 st3 x1 x2 x3 a b c old old1 old2 fold fold1 fold2 e r k :
  shaped c -> c_dens c <> [] -> (c_ne c <= rne)%nat -> (r < c_nrhos c)%nat -> (e < c_ne c)%nat ->
  (forall p e r, dot p (st3 e r) = a * dot p (st1 e r) + b * dot p (st2 e r)) ->
  (forall e r i, x3 e r i = a * x1 e r i + b * x2 e r i) ->
  tau_fair c (flux_of osc dot proj st1) -> tau_fair c (flux_of osc dot proj st2) -> tau_fair c (flux_of osc dot proj st3) ->
  regeneration dot inter osc tb rne proj st3 (with_ext c x3) old fold e r k =
  a * regeneration dot inter osc tb rne proj st1 (with_ext c x1) old1 fold1 e r k +
  b * regeneration dot inter osc tb rne proj st2 (with_ext c x2) old2 fold2 e r k.
Proof.
  intros Hs Hne Hn Hr He Hd Hx F1 F2 F3. rewrite !regeneration_eq by assumption.
  cbn [with_ext c_src c_nrhos]. rewrite !Rmult_plus_distr_l.
  assert (S : sources_at proj (with_ext c x3) r e k = a * sources_at proj (with_ext c x1) r e k + b * sources_at proj (with_ext c x2) r e k).
  { unfold sources_at. cbn [with_ext c_numneu c_ext]. apply rsum_lin. intros i _. rewrite Hx. ring. }
  assert (F : inter = true -> rsum 0 3 (fun f => factor (with_ext c x3) tb (update_lengths (with_ext c x3) tb old) (flux_of osc dot proj st3) r f e * proj r f (if osc then e else 0%nat) k) =
    a * rsum 0 3 (fun f => factor (with_ext c x1) tb (update_lengths (with_ext c x1) tb old1) (flux_of osc dot proj st1) r f e * proj r f (if osc then e else 0%nat) k) +
    b * rsum 0 3 (fun f => factor (with_ext c x2) tb (update_lengths (with_ext c x2) tb old2) (flux_of osc dot proj st2) r f e * proj r f (if osc then e else 0%nat) k)).
  { intros _. apply rsum_lin. intros f Hf.
    change (factor (with_ext c x3) tb (update_lengths (with_ext c x3) tb old)) with (factor c tb (update_lengths c tb old)).
    change (factor (with_ext c x1) tb (update_lengths (with_ext c x1) tb old1)) with (factor c tb (update_lengths c tb old1)).
    change (factor (with_ext c x2) tb (update_lengths (with_ext c x2) tb old2)) with (factor c tb (update_lengths c tb old2)).
    assert (W : same_nodes c tb tb) by (intros g r0 f0 e2 e1 _ _; repeat split).
    rewrite (factor_nodes c tb tb old1 old _ r f e Hs Hne W Hr He), (factor_nodes c tb tb old2 old _ r f e Hs Hne W Hr He).
    rewrite (factor_lin c tb (update_lengths c tb old) (flux_of osc dot proj st1) (flux_of osc dot proj st2) (flux_of osc dot proj st3) a b r f e Hs Hr (proj2 Hf) F1 F2 F3).
    - ring.
    - intros. unfold flux_of, fluxe, flux0. destruct osc; apply Hd. }
  destruct inter.
  - rewrite (F eq_refl). destruct (c_src c); rewrite ?S; ring.
  - destruct (c_src c); rewrite ?S; ring.
Qed.

(** ** The absorption *)
Section Evolution.
Variable n : nat.
Variable mat_of : vec -> mat.
Variable dot : vec -> vec -> R.
Hypothesis su : su_repr n mat_of dot.
Variables inter osc : bool.
Variable tb : itables.
Variables rne ne nr : nat.
Variables t0 t1 : R.
Variable Hm : R -> nat -> nat -> mat.                (* clock, node, kind *)
Variable proj : R -> nat -> nat -> nat -> vec.       (* clock; kind, flavour, node *)
Variable c : R -> iconf.

(** A proper set-up at every clock of the way: non-negative cross sections and densities,
    projectors that are projectors, hermitian Hamiltonians. *)
Record setup : Prop := Setup {
  st_tab : nonneg_tables tb;
  st_pad : (ne <= rne)%nat;
  st_conf : forall s, t0 <= s <= t1 -> shaped (c s) /\ c_dens (c s) <> [] /\ nonneg_conf (c s) /\ c_ne (c s) = ne /\ c_nrhos (c s) = nr;
  st_proj : forall s r f e, t0 <= s <= t1 -> (r < nr)%nat -> (f < 3)%nat -> (e < ne)%nat -> projector n (mat_of (proj s r f e));
  st_ham : forall s r e, t0 <= s <= t1 -> (r < nr)%nat -> (e < ne)%nat -> hermitian n (Hm s e r) }.
Hypothesis ok : setup.

Lemma mat_vzero : meq n (mat_of vzero) mzero.
Proof.
  eapply meq_trans; [apply (su_ext _ _ _ su vzero (vscale 0 vzero)); intros; unfold vscale, vzero; ring|].
  eapply meq_trans; [apply (su_scale _ _ _ su)|]. intros i j _ _. apply Ceq; cbn; ring.
Qed.

Lemma absorption_psd s old e r : t0 <= s <= t1 -> (r < nr)%nat -> (e < ne)%nat -> psd n (mat_of (absorption inter tb (proj s) (c s) old e r)).
Proof.
  intros S Hr He. unfold absorption. destruct inter; [|apply (psd_meq n mzero); [apply meq_sym, mat_vzero|apply psd_zero]].
  destruct (st_conf ok s S) as (Hs & Hd & (D & Fr & Y & _) & Ene & Enr). destruct (st_tab ok) as [_ _ _ N4 N5 N6 _ _].
  set (cf := c s) in *.
  set (g := fun f => 1 / 2 * (rsum 0 (length (c_dens cf)) (fun g => nth g (c_dens cf) 0 * (t_sNC tb g r f e + t_sCC tb g r f e))
     + (if c_gr cf && is_anti (c_nt cf) r && Nat.eqb f 0 then (if Nat.eqb (length (c_dens cf)) 1 then c_ye cf * nth 0 (c_dens cf) 0 else nth 0 (c_dens cf) 0) * t_sGR tb e else 0))).
  assert (G0 : forall f, 0 <= g f).
  { intro f. unfold g. apply Rmult_le_pos; [lra|]. apply Rplus_le_le_0_compat.
    - apply rsum_nonneg. intros q _. apply Rmult_le_pos; [apply D|]. pose proof (N4 q r f e). pose proof (N5 q r f e). lra.
    - destruct (c_gr cf && is_anti (c_nt cf) r && Nat.eqb f 0)%bool; [|lra]. apply Rmult_le_pos; [|apply N6]. destruct (Nat.eqb _ 1); [apply Rmult_le_pos; [exact Y|apply D]|apply D]. }
  apply (psd_meq n (mplus (mplus (mscale (g 0%nat) (mat_of (proj s r 0%nat e))) (mscale (g 1%nat) (mat_of (proj s r 1%nat e)))) (mscale (g 2%nat) (mat_of (proj s r 2%nat e))))).
  - apply meq_sym.
    eapply meq_trans; [apply (su_ext _ _ _ su _ (vadd (vadd (vscale (g 0%nat) (proj s r 0%nat e)) (vscale (g 1%nat) (proj s r 1%nat e))) (vscale (g 2%nat) (proj s r 2%nat e))))|].
    + intros k _. rewrite c65_absorption by (assumption || lia). rewrite !(rsum_first _ 3) by lia. rewrite (rsum_nil 3 3) by lia.
      unfold vadd, vscale. fold (g 0%nat) (g 1%nat) (g 2%nat). ring.
    + eapply meq_trans; [apply (su_add _ _ _ su)|]. apply mplus_meq; [|apply (su_scale _ _ _ su)].
      eapply meq_trans; [apply (su_add _ _ _ su)|]. apply mplus_meq; apply (su_scale _ _ _ su).
  - repeat apply psd_plus; apply psd_scale; try apply G0; apply psd_projector; apply (st_proj ok); assumption || lia.
Qed.

Lemma absorption_old s old old' e r : t0 <= s <= t1 -> (r < nr)%nat -> (e < ne)%nat ->
  meq n (mat_of (absorption inter tb (proj s) (c s) old e r)) (mat_of (absorption inter tb (proj s) (c s) old' e r)).
Proof.
  intros S Hr He. apply (su_ext _ _ _ su). intros k _. unfold absorption. destruct inter; [|reflexivity].
  destruct (st_conf ok s S) as (Hs & Hd & _ & Ene & Enr). rewrite !c65_absorption by (assumption || lia). reflexivity.
Qed.

Lemma dot_meq p a b : meq n (mat_of a) (mat_of b) -> dot p a = dot p b.
Proof. intro E. rewrite !(su_dot _ _ _ su). f_equal. apply trace_meq. apply mmult_meq; [apply meq_refl|exact E]. Qed.

(** *** At most one evolution starts from given states, whatever the buffers of the object hold *)
Theorem c90_unique old old' fold fold' st st' : t0 <= t1 ->
  (forall s e r, t0 <= s <= t1 -> (e < ne)%nat -> (r < nr)%nat ->
     solves_at n mat_of dot inter osc tb rne (Hm s e r) (proj s) (c s) (old s) (fold s) st s e r /\
     solves_at n mat_of dot inter osc tb rne (Hm s e r) (proj s) (c s) (old' s) (fold' s) st' s e r) ->
  (forall e r, (e < ne)%nat -> (r < nr)%nat -> meq n (mat_of (st t0 e r)) (mat_of (st' t0 e r))) ->
  forall s e r, t0 <= s <= t1 -> (e < ne)%nat -> (r < nr)%nat -> meq n (mat_of (st s e r)) (mat_of (st' s e r)).
Proof.
  intros L D I.
  assert (K : forall d e, (e + d = ne)%nat -> (e < ne)%nat -> forall s r, t0 <= s <= t1 -> (r < nr)%nat -> meq n (mat_of (st s e r)) (mat_of (st' s e r))).
  { intro d. induction d as [d IH] using (well_founded_induction lt_wf). intros e E He s r S Hr.
    assert (Above : forall u e2 r2, t0 <= u <= t1 -> (e < e2 < ne)%nat -> (r2 < nr)%nat -> meq n (mat_of (st u e2 r2)) (mat_of (st' u e2 r2))).
    { intros u e2 r2 U E2 R2. apply (IH (ne - e2)%nat); try assumption; lia. }
    apply (same_solution n (fun u => mat_of (st u e r)) (fun u => mat_of (st' u e r)) (fun u => Hm u e r)
      (fun u => mat_of (absorption inter tb (proj u) (c u) (old u) e r))
      (fun u => mat_of (regeneration dot inter osc tb rne (proj u) (st u) (c u) (old u) (fold u) e r))
      (fun u => mat_of (regeneration dot inter osc tb rne (proj u) (st' u) (c u) (old' u) (fold' u) e r)) t0 t1 L); [|apply I; assumption|exact S].
    intros u U. destruct (D u e r U He Hr) as [D1 D2]. split; [apply (st_ham ok); assumption|]. split; [apply absorption_psd; assumption|].
    destruct (st_conf ok u U) as (Hs & Hd & _ & Ene & Enr). pose proof (st_pad ok) as Hp. split; [|split].
    - apply (su_ext _ _ _ su). intros k _. rewrite !regeneration_eq by (rewrite ?Ene, ?Enr; assumption || lia). f_equal.
      destruct inter; [|reflexivity]. apply rsum_ext. intros f Hf. f_equal.
      assert (W : same_nodes (c u) tb tb) by (intros g r0 f0 e2 e1 _ _; repeat split).
      rewrite (factor_nodes (c u) tb tb (old' u) (old u) _ r f e Hs Hd W) by lia.
      apply factor_ext; [exact Hs|lia|lia|]. intros r2 f2 e2 R2 F2 E2.
      unfold flux_of, fluxe, flux0. destruct osc; apply dot_meq, Above; try assumption; lia.
    - exact D1.
    - unfold solves_at in D2. eapply mderiv_meq; [|exact D2]. unfold rhs. apply mplus_meq; [|apply meq_refl]. apply mplus_meq; [apply meq_refl|].
      apply mscale_meq. unfold anti. pose proof (absorption_old u (old' u) (old u) e r U Hr He) as A.
      apply mplus_meq; apply mmult_meq; (exact A || apply meq_refl). }
  intros s e r S He Hr. apply (K (ne - e)%nat e); try assumption; lia.
Qed.

(** Read-outs follow: the same value of every observable. *)
Theorem c90_same_readout old old' fold fold' st st' p : t0 <= t1 ->
  (forall s e r, t0 <= s <= t1 -> (e < ne)%nat -> (r < nr)%nat ->
     solves_at n mat_of dot inter osc tb rne (Hm s e r) (proj s) (c s) (old s) (fold s) st s e r /\
     solves_at n mat_of dot inter osc tb rne (Hm s e r) (proj s) (c s) (old' s) (fold' s) st' s e r) ->
  (forall e r k, (e < ne)%nat -> (r < nr)%nat -> (k < n * n)%nat -> st t0 e r k = st' t0 e r k) ->
  forall e r, (e < ne)%nat -> (r < nr)%nat -> dot p (st t1 e r) = dot p (st' t1 e r).
Proof.
  intros L D I e r He Hr. apply dot_meq. apply (c90_unique old old' fold fold' st st' L D); [|lra|exact He|exact Hr].
  intros e' r' He' Hr'. apply (su_ext _ _ _ su). intros k K. apply I; assumption.
Qed.
End Evolution.

Lemma mderiv_lin n A B t A' B' a b : mderiv n A t A' -> mderiv n B t B' ->
  mderiv n (fun s => mplus (mscale a (A s)) (mscale b (B s))) t (mplus (mscale a A') (mscale b B')).
Proof.
  intros P Q i j I J. destruct (P i j I J) as [P1 P2]. destruct (Q i j I J) as [Q1 Q2]. split.
  - pose proof (derivable_pt_lim_plus _ _ _ _ _ (derivable_pt_lim_scal _ a _ _ P1) (derivable_pt_lim_scal _ b _ _ Q1)) as Z.
    unfold mult_real_fct, plus_fct in Z.
    replace (re (mplus (mscale a A') (mscale b B') i j)) with (a * re (A' i j) + b * re (B' i j)) by (cbn; ring).
    intros eps He. destruct (Z eps He) as [d Hd]. exists d. intros h H0 H1. cbn. specialize (Hd h H0 H1).
    match goal with |- Rabs ?x < _ => match type of Hd with Rabs ?y < _ => replace x with y by (field; exact H0) end end. exact Hd.
  - pose proof (derivable_pt_lim_plus _ _ _ _ _ (derivable_pt_lim_scal _ a _ _ P2) (derivable_pt_lim_scal _ b _ _ Q2)) as Z.
    unfold mult_real_fct, plus_fct in Z.
    replace (im (mplus (mscale a A') (mscale b B') i j)) with (a * im (A' i j) + b * im (B' i j)) by (cbn; ring).
    intros eps He. destruct (Z eps He) as [d Hd]. exists d. intros h H0 H1. cbn. specialize (Hd h H0 H1).
    match goal with |- Rabs ?x < _ => match type of Hd with Rabs ?y < _ => replace x with y by (field; exact H0) end end. exact Hd.
Qed.

Section Superposition.
Variable n : nat.
Variable mat_of : vec -> mat.
Variable dot : vec -> vec -> R.
Hypothesis su : su_repr n mat_of dot.
Variables inter osc : bool.
Variable tb : itables.
Variables rne ne nr : nat.
Variables t0 t1 : R.
Variable Hm : R -> nat -> nat -> mat.
Variable proj : R -> nat -> nat -> nat -> vec.
Variable c : R -> iconf.
Hypothesis ok : setup n mat_of tb rne ne nr t0 t1 Hm proj c.
Variables x1 x2 : R -> nat -> nat -> nat -> R.       (* sources of the two *)
Variables a b : R.
Variables old1 old2 old3 : R -> istate.
Variables fold1 fold2 fold3 : R -> ifactors.
Definition solves (x : R -> nat -> nat -> nat -> R) (old : R -> istate) (fold : R -> ifactors) (st : R -> nat -> nat -> vec) (s : R) (e r : nat) : Prop :=
  solves_at n mat_of dot inter osc tb rne (Hm s e r) (proj s) (with_ext (c s) (x s)) (old s) (fold s) st s e r.
Definition combined (u v : R -> nat -> nat -> vec) : R -> nat -> nat -> vec := fun s e r => vadd (vscale a (u s e r)) (vscale b (v s e r)).
Definition x3 (s : R) (e r i : nat) : R := a * x1 s e r i + b * x2 s e r i.
Definition fair (st : R -> nat -> nat -> vec) : Prop := inter = true -> forall s, t0 <= s <= t1 -> tau_fair (c s) (flux_of osc dot (proj s) (st s)).

Lemma combined_mat u v s e r : meq n (mat_of (combined u v s e r)) (mplus (mscale a (mat_of (u s e r))) (mscale b (mat_of (v s e r)))).
Proof.
  unfold combined. eapply meq_trans; [apply (su_add _ _ _ su)|]. apply mplus_meq; apply (su_scale _ _ _ su).
Qed.
Lemma combined_dot u v s e r p : dot p (combined u v s e r) = a * dot p (u s e r) + b * dot p (v s e r).
Proof.
  rewrite !(su_dot _ _ _ su).
  rewrite (trace_meq n _ (mplus (mscale a (mmult n (mat_of p) (mat_of (u s e r)))) (mscale b (mmult n (mat_of p) (mat_of (v s e r)))))).
  - rewrite trace_plus, !trace_scale. cbn. ring.
  - eapply meq_trans; [apply mmult_meq; [apply meq_refl|apply combined_mat]|].
    eapply meq_trans; [apply mmult_plus_r|]. apply mplus_meq; apply mmult_scale_r.
Qed.
Lemma rhs_lin H G I1 I2 A B : meq n (rhs n H G (mplus (mscale a I1) (mscale b I2)) (mplus (mscale a A) (mscale b B)))
  (mplus (mscale a (rhs n H G I1 A)) (mscale b (rhs n H G I2 B))).
Proof.
  assert (Lft : forall M, meq n (mmult n M (mplus (mscale a A) (mscale b B))) (mplus (mscale a (mmult n M A)) (mscale b (mmult n M B)))).
  { intro M. eapply meq_trans; [apply mmult_plus_r|]. apply mplus_meq; apply mmult_scale_r. }
  assert (Rgt : forall M, meq n (mmult n (mplus (mscale a A) (mscale b B)) M) (mplus (mscale a (mmult n A M)) (mscale b (mmult n B M)))).
  { intro M. eapply meq_trans; [apply mmult_plus_l|]. apply mplus_meq; apply mmult_scale_l. }
  set (X := mplus (mscale a A) (mscale b B)) in *. clearbody X.
  intros i j Hi Hj. unfold rhs, coherent, anti, mplus, mscale in *.
  rewrite (Lft H i j Hi Hj), (Rgt H i j Hi Hj), (Lft G i j Hi Hj), (Rgt G i j Hi Hj). apply Ceq; cbn; ring.
Qed.

(** *** Combinations of evolutions are evolutions, with the combined sources *)
Theorem c90_combination st1 st2 : 
  (forall s e r, t0 <= s <= t1 -> (e < ne)%nat -> (r < nr)%nat -> solves x1 old1 fold1 st1 s e r /\ solves x2 old2 fold2 st2 s e r) ->
  fair st1 -> fair st2 -> fair (combined st1 st2) ->
  forall s e r, t0 <= s <= t1 -> (e < ne)%nat -> (r < nr)%nat -> solves x3 old3 fold3 (combined st1 st2) s e r.
Proof.
  intros D F1 F2 F3 s e r S He Hr. destruct (D s e r S He Hr) as [D1 D2]. unfold solves, solves_at in *.
  destruct (st_conf _ _ _ _ _ _ _ _ _ _ _ ok s S) as (Hs & Hd & _ & Ene & Enr). pose proof (st_pad _ _ _ _ _ _ _ _ _ _ _ ok) as Hp.
  assert (okx : forall x, setup n mat_of tb rne ne nr t0 t1 Hm proj (fun u => with_ext (c u) (x u))).
  { intro x. destruct ok as [O1 O2 O3 O4 O5]. constructor; try assumption. }
  set (G1 := mat_of (absorption inter tb (proj s) (with_ext (c s) (x1 s)) (old1 s) e r)) in *.
  set (G2 := mat_of (absorption inter tb (proj s) (with_ext (c s) (x2 s)) (old2 s) e r)) in *.
  set (G3 := mat_of (absorption inter tb (proj s) (with_ext (c s) (x3 s)) (old3 s) e r)) in *.
  assert (E1 : meq n G1 G3) by apply (absorption_old n mat_of dot su inter tb rne ne nr t0 t1 Hm proj _ (okx x1) s (old1 s) (old3 s) e r S Hr He).
  assert (E2 : meq n G2 G3) by apply (absorption_old n mat_of dot su inter tb rne ne nr t0 t1 Hm proj _ (okx x2) s (old2 s) (old3 s) e r S Hr He).
  assert (I3 : meq n (mat_of (regeneration dot inter osc tb rne (proj s) (combined st1 st2 s) (with_ext (c s) (x3 s)) (old3 s) (fold3 s) e r))
    (mplus (mscale a (mat_of (regeneration dot inter osc tb rne (proj s) (st1 s) (with_ext (c s) (x1 s)) (old1 s) (fold1 s) e r)))
           (mscale b (mat_of (regeneration dot inter osc tb rne (proj s) (st2 s) (with_ext (c s) (x2 s)) (old2 s) (fold2 s) e r))))).
  { eapply meq_trans; [apply (su_ext _ _ _ su _ (vadd (vscale a (regeneration dot inter osc tb rne (proj s) (st1 s) (with_ext (c s) (x1 s)) (old1 s) (fold1 s) e r))
       (vscale b (regeneration dot inter osc tb rne (proj s) (st2 s) (with_ext (c s) (x2 s)) (old2 s) (fold2 s) e r))))|].
    - intros k _. unfold vadd, vscale. destruct inter eqn:In.
      + apply c90_additive; try assumption; try lia; [intros; apply combined_dot|reflexivity|apply F1|apply F2|apply F3]; trivial.
      + rewrite !regeneration_eq by (first [exact Hs | cbn [with_ext c_ne c_nrhos]; lia]). cbn [andb]. cbn [with_ext c_src]. destruct (c_src (c s)); [|ring].
        assert (Q : sources_at (proj s) (with_ext (c s) (x3 s)) r e k = a * sources_at (proj s) (with_ext (c s) (x1 s)) r e k + b * sources_at (proj s) (with_ext (c s) (x2 s)) r e k).
        { unfold sources_at. cbn [with_ext c_numneu c_ext]. apply rsum_lin. intros i _. unfold x3. ring. }
        rewrite Q. ring.
    - eapply meq_trans; [apply (su_add _ _ _ su)|]. apply mplus_meq; apply (su_scale _ _ _ su). }
  assert (D1' : mderiv n (fun u => mat_of (st1 u e r)) s (rhs n (Hm s e r) G3 (mat_of (regeneration dot inter osc tb rne (proj s) (st1 s) (with_ext (c s) (x1 s)) (old1 s) (fold1 s) e r)) (mat_of (st1 s e r)))).
  { eapply mderiv_meq; [|exact D1]. unfold rhs, anti. apply mplus_meq; [|apply meq_refl]. apply mplus_meq; [apply meq_refl|]. apply mscale_meq.
    apply mplus_meq; apply mmult_meq; (exact E1 || apply meq_refl). }
  assert (D2' : mderiv n (fun u => mat_of (st2 u e r)) s (rhs n (Hm s e r) G3 (mat_of (regeneration dot inter osc tb rne (proj s) (st2 s) (with_ext (c s) (x2 s)) (old2 s) (fold2 s) e r)) (mat_of (st2 s e r)))).
  { eapply mderiv_meq; [|exact D2]. unfold rhs, anti. apply mplus_meq; [|apply meq_refl]. apply mplus_meq; [apply meq_refl|]. apply mscale_meq.
    apply mplus_meq; apply mmult_meq; (exact E2 || apply meq_refl). }
  pose proof (mderiv_lin n _ _ s _ _ a b D1' D2') as D3.
  assert (D4 : mderiv n (fun u => mat_of (combined st1 st2 u e r)) s
    (mplus (mscale a (rhs n (Hm s e r) G3 (mat_of (regeneration dot inter osc tb rne (proj s) (st1 s) (with_ext (c s) (x1 s)) (old1 s) (fold1 s) e r)) (mat_of (st1 s e r))))
           (mscale b (rhs n (Hm s e r) G3 (mat_of (regeneration dot inter osc tb rne (proj s) (st2 s) (with_ext (c s) (x2 s)) (old2 s) (fold2 s) e r)) (mat_of (st2 s e r)))))).
  { intros i j Hi Hj. destruct (D3 i j Hi Hj) as [P Q]. split.
    - intros eps He'. destruct (P eps He') as [d Hd']. exists d. intros h H0 H1. rewrite !(combined_mat st1 st2 _ e r i j Hi Hj). apply Hd'; assumption.
    - intros eps He'. destruct (Q eps He') as [d Hd']. exists d. intros h H0 H1. rewrite !(combined_mat st1 st2 _ e r i j Hi Hj). apply Hd'; assumption. }
  eapply mderiv_meq; [|exact D4]. apply meq_sym.
  eapply meq_trans; [|apply rhs_lin]. unfold rhs, anti, coherent. apply mplus_meq; [|exact I3].
  pose proof (combined_mat st1 st2 s e r) as Cm. apply mplus_meq.
  - intros i j Hi Hj. rewrite (mmult_meq n _ _ _ _ (meq_refl n (Hm s e r)) Cm i j Hi Hj), (mmult_meq n _ _ _ _ Cm (meq_refl n (Hm s e r)) i j Hi Hj). reflexivity.
  - apply mscale_meq. apply mplus_meq; apply mmult_meq; (exact Cm || apply meq_refl).
Qed.

(** *** So fluxes evolve independently: whatever evolves from the combined states under the
    combined sources is at every clock the combination. *)
Theorem c90_superposition st1 st2 st3 : t0 <= t1 ->
  (forall s e r, t0 <= s <= t1 -> (e < ne)%nat -> (r < nr)%nat ->
     solves x1 old1 fold1 st1 s e r /\ solves x2 old2 fold2 st2 s e r /\ solves x3 old3 fold3 st3 s e r) ->
  fair st1 -> fair st2 -> fair (combined st1 st2) ->
  (forall e r k, (e < ne)%nat -> (r < nr)%nat -> (k < n * n)%nat -> st3 t0 e r k = a * st1 t0 e r k + b * st2 t0 e r k) ->
  forall p s e r, t0 <= s <= t1 -> (e < ne)%nat -> (r < nr)%nat -> dot p (st3 s e r) = a * dot p (st1 s e r) + b * dot p (st2 s e r).
Proof.
  intros L D F1 F2 F3 I p s e r S He Hr. rewrite <- combined_dot. apply (dot_meq n mat_of dot su).
  assert (okx : setup n mat_of tb rne ne nr t0 t1 Hm proj (fun u => with_ext (c u) (x3 u))).
  { destruct ok as [O1 O2 O3 O4 O5]. constructor; try assumption. }
  apply (c90_unique n mat_of dot su inter osc tb rne ne nr t0 t1 Hm proj _ okx old3 old3 fold3 fold3 st3 (combined st1 st2) L); try assumption.
  - intros u e' r' U He' Hr'. split; [apply (D u e' r' U He' Hr')|]. apply c90_combination; try assumption.
    intros v e2 r2 V He2 Hr2. split; apply D; assumption.
  - intros e' r' He' Hr'. apply (su_ext _ _ _ su). intros k K. rewrite I by assumption. reflexivity.
Qed.
End Superposition.

(** ** Size of the states *)
(** The sum of the squared sizes of all matrix elements, Tr(rho^2) for hermitian states. *)
Definition purity (n : nat) (A : mat) : R := CMatrix.rsum n (fun i => CMatrix.rsum n (fun j => re (A i j) * re (A i j) + im (A i j) * im (A i j))).

Lemma rhs_still n H D : hermitian n H -> forall G I, meq n G mzero -> meq n I mzero -> re (trace n (mmult n (dagger D) (rhs n H G I D))) = 0.
Proof.
  intros E G I HG HI.
  rewrite (trace_meq n _ (mmult n (dagger D) (coherent n H D))); [apply coherent_still, E|].
  apply mmult_meq; [apply meq_refl|]. intros i j Hi Hj. unfold rhs. unfold mplus at 1 2. unfold mscale, anti. unfold mplus.
  rewrite (HI i j Hi Hj).
  replace (mmult n G D i j) with c0 by (symmetry; rewrite (mmult_meq n _ _ _ _ HG (meq_refl n D) i j Hi Hj); apply csum_zero; intros; apply Ceq; cbn; ring).
  replace (mmult n D G i j) with c0 by (symmetry; rewrite (mmult_meq n _ _ _ _ (meq_refl n D) HG i j Hi Hj); apply csum_zero; intros; apply Ceq; cbn; ring).
  unfold mzero. apply Ceq; cbn; ring.
Qed.

(** *** Without interactions and sources the purity of every state is kept, in any medium *)
Theorem c90_purity n mat_of dot osc tb rne ne nr t0 t1 Hm proj c old fold st s e r : su_repr n mat_of dot ->
  setup n mat_of tb rne ne nr t0 t1 Hm proj c -> (forall u, t0 <= u <= t1 -> c_src (c u) = false) ->
  (forall u, t0 <= u <= t1 -> solves_at n mat_of dot false osc tb rne (Hm u e r) (proj u) (c u) (old u) (fold u) st u e r) ->
  t0 <= s <= t1 -> (e < ne)%nat -> (r < nr)%nat -> purity n (mat_of (st s e r)) = purity n (mat_of (st t0 e r)).
Proof.
  intros su ok Src D S He Hr. change (nrm n (mat_of (st s e r)) = nrm n (mat_of (st t0 e r))).
  destruct (Req_dec t0 s) as [->|N]; [reflexivity|].
  set (dr := fun u => 2 * re (trace n (mmult n (dagger (mat_of (st u e r))) (rhs n (Hm u e r) (mat_of (absorption false tb (proj u) (c u) (old u) e r))
    (mat_of (regeneration dot false osc tb rne (proj u) (st u) (c u) (old u) (fold u) e r)) (mat_of (st u e r)))))).
  destruct (MVT_cor2 (fun u => nrm n (mat_of (st u e r))) dr t0 s) as (v & E & V).
  - lra.
  - intros u U. apply (nrm_deriv n (fun u => mat_of (st u e r))). apply (D u). lra.
  - cbv beta in E. assert (Z : dr v = 0).
    { unfold dr. rewrite rhs_still; [ring|apply (st_ham _ _ _ _ _ _ _ _ _ _ _ ok); lra || assumption| |].
      - apply (mat_vzero n mat_of dot su).
      - eapply meq_trans; [|apply (mat_vzero n mat_of dot su)]. apply (su_ext _ _ _ su). intros k _.
        unfold regeneration, IntModel.interactions_rho. cbn [andb negb]. rewrite (Src v) by lra. reflexivity. }
    rewrite Z in E. lra.
Qed.

(** *** At the highest energy nothing comes in: without sources the purity never grows *)
Theorem c90_top n mat_of dot inter osc tb rne ne nr t0 t1 Hm proj c old fold st s r : su_repr n mat_of dot ->
  setup n mat_of tb rne ne nr t0 t1 Hm proj c -> (forall u, t0 <= u <= t1 -> c_src (c u) = false) -> (1 <= ne)%nat ->
  (forall u, t0 <= u <= t1 -> solves_at n mat_of dot inter osc tb rne (Hm u (ne - 1)%nat r) (proj u) (c u) (old u) (fold u) st u (ne - 1)%nat r) ->
  t0 <= s <= t1 -> (r < nr)%nat -> purity n (mat_of (st s (ne - 1)%nat r)) <= purity n (mat_of (st t0 (ne - 1)%nat r)).
Proof.
  intros su ok Src N D S Hr. change (nrm n (mat_of (st s (ne - 1)%nat r)) <= nrm n (mat_of (st t0 (ne - 1)%nat r))).
  apply (nrm_decreases n (fun u => mat_of (st u (ne - 1)%nat r)) (fun u => Hm u (ne - 1)%nat r) (fun u => mat_of (absorption inter tb (proj u) (c u) (old u) (ne - 1)%nat r)) t0 s); [lra|].
  intros u U. assert (U' : t0 <= u <= t1) by lra. split; [apply (st_ham _ _ _ _ _ _ _ _ _ _ _ ok); lia || assumption|].
  split; [apply (absorption_psd n mat_of dot su inter tb rne ne nr t0 t1 Hm proj c ok); lia || assumption|].
  eapply mderiv_meq; [|apply (D u U')]. unfold rhs. apply mplus_meq; [apply meq_refl|].
  eapply meq_trans; [|apply (mat_vzero n mat_of dot su)]. apply (su_ext _ _ _ su). intros k _.
  destruct (st_conf _ _ _ _ _ _ _ _ _ _ _ ok u U') as (Hs & Hd & _ & Ene & Enr). pose proof (st_pad _ _ _ _ _ _ _ _ _ _ _ ok) as Hp.
  rewrite regeneration_eq by (assumption || lia). rewrite (Src u U'). unfold vzero. rewrite Rplus_0_r. destruct inter; [|reflexivity].
  apply rsum_zero. intros f Hf. rewrite (factor_ext (c u) tb _ _ (fun _ _ _ => 0) r f (ne - 1) Hs) by lia.
  replace (factor _ _ _ _ _ _ _) with 0; [ring|]. symmetry. unfold factor, nc_source, had_source, lep_source, gr_source.
  rewrite !rsum_nil by lia. destruct (c_tau (c u)), (Nat.eqb f 2), (c_gr (c u) && is_anti (c_nt (c u)) r)%bool; ring.
Qed.

(** ** Finding *)
(** With a negative tau flux (a state short of positivity) the terms do not add: the test before the taus are
    counted leaves a node out when neither flux is positive. *)
Theorem c90_negative_refuted :
  let c := ex_c Both 2 true false false [1] [1] in
  let st := fun (x : R) (e r : nat) => (fun k => if Nat.eqb k 2 then x else 0) : vec in
  shaped c /\ (forall p e r, ex_dot p (st 1 e r) = 1 * ex_dot p (st 2 e r) + 1 * ex_dot p (st (-1) e r)) /\
  regeneration ex_dot true true ex_t 4 ex_proj (st 1) c ex_s ex_f 0 0 0%nat <>
  regeneration ex_dot true true ex_t 4 ex_proj (st 2) c ex_s ex_f 0 0 0%nat + regeneration ex_dot true true ex_t 4 ex_proj (st (-1)) c ex_s ex_f 0 0 0%nat.
Proof.
  intros c st.
  assert (Hs : shaped c) by (unfold shaped, c, ex_c; cbn; repeat split; congruence || lia).
  split; [exact Hs|]. split; [intros; unfold ex_dot, st; cbn; ring|].
  assert (V : forall x, regeneration ex_dot true true ex_t 4 ex_proj (st x) c ex_s ex_f 0 0 0%nat = if rle x 0 then 0 else x).
  { intro x. rewrite regeneration_eq by (exact Hs || cbn; lia). cbn [c ex_c c_src].
    assert (L1 : forall r f e, s_NC (update_lengths c ex_t ex_s) r f e = 1).
    { intros. rewrite s_NC_eq by discriminate. unfold len_sum, rsum, c. cbn. lra. }
    assert (L2 : forall r f e, s_CC (update_lengths c ex_t ex_s) r f e = 1).
    { intros. rewrite s_CC_eq by discriminate. unfold len_sum, rsum, c. cbn. lra. }
    unfold factor, nc_source, lep_source, had_source, tau_flux, tau_skip.
    assert (Fx : forall r f e, flux_of true ex_dot ex_proj (st x) r f e = if Nat.eqb f 2 then x else 0).
    { intros. unfold flux_of, fluxe, ex_dot, ex_proj, st. destruct f as [|[|[|f]]]; cbn; ring. }
    unfold rsum. cbn [c ex_c c_ne c_dens c_tau c_gr c_src c_delE length Nat.sub seq map fold_right andb ex_t t_dNC Nat.eqb t_tlep t_tall t_dCC].
    rewrite !Fx. cbn [Nat.eqb]. rewrite !L1, !L2. unfold fr, ex_proj. cbn. destruct (rle x 0); cbn; ring. }
  rewrite !V. rewrite (rle_false 1 0), (rle_false 2 0), (rle_true (-1) 0) by lra. lra.
Qed.

(** ** A case: one node, diagonal states; absorption with and without a source *)
Definition diag (v : vec) : mat := fun i j => if Nat.eqb i j then rtc (v i) else c0.
Lemma diag_repr : su_repr 3 diag ex_dot.
Proof.
  constructor.
  - intros a b E i j Hi Hj. unfold diag. destruct (Nat.eqb i j); [|reflexivity]. rewrite E by lia. reflexivity.
  - intros a b i j _ _. unfold diag, mplus, vadd. destruct (Nat.eqb i j); apply Ceq; cbn; ring.
  - intros x a i j _ _. unfold diag, mscale, vscale. destruct (Nat.eqb i j); apply Ceq; cbn; ring.
  - intros a b. unfold ex_dot, trace, mmult, diag. cbn. ring.
Qed.
Definition one_c (s : R) : iconf := MkC Nu 1 1 3 false false true [1] [1] (1 / 2) (fun _ => 1) (fun _ _ _ => 0).
Definition one_st (x y s : R) (e r : nat) : vec := fun k => x / 2 + y * exp (- (2 * s)).
Lemma one_setup t0 t1 : setup 3 diag ex_t 4 1 1 t0 t1 (fun _ _ _ => mzero) (fun _ => ex_proj) one_c.
Proof.
  constructor.
  - constructor; intros; cbn; lra.
  - lia.
  - intros s _. unfold one_c. cbn. split; [unfold shaped; cbn; repeat split; congruence || lia|]. split; [discriminate|].
    split; [|split; reflexivity]. unfold nonneg_conf. cbn [c_dens c_frac c_ye c_delE]. repeat split; try lra; intro g; try lra; destruct g as [|[|g]]; cbn; lra.
  - intros s r f e _ _ Hf _. split.
    + intros i j Hi Hj. unfold dagger, diag, ex_proj. rewrite (Nat.eqb_sym j i). destruct (Nat.eqb_spec i j) as [->|]; apply Ceq; cbn; ring.
    + intros i j Hi Hj. unfold mmult, diag, ex_proj.
      destruct f as [|[|[|f]]]; [| | |lia]; (destruct i as [|[|[|i]]]; [| | |lia]); (destruct j as [|[|[|j]]]; [| | |lia]); apply Ceq; cbn; ring.
  - intros s r e _ _ _ i j _ _. apply Ceq; cbn; ring.
Qed.
Lemma one_solves x y s old fold : solves_at 3 diag ex_dot true true ex_t 4 mzero ex_proj (with_ext (one_c s) (fun _ _ _ => x)) old fold (one_st x y) s 0 0.
Proof.
  assert (Hs : shaped (with_ext (one_c s) (fun _ _ _ => x))) by (unfold shaped; cbn; repeat split; congruence || lia).
  unfold solves_at.
  assert (A : forall k, (k < 3)%nat -> absorption true ex_t ex_proj (with_ext (one_c s) (fun _ _ _ => x)) old 0 0 k = 1).
  { intros k K. unfold absorption. rewrite c65_absorption by (exact Hs || discriminate || cbn; lia).
    unfold rsum, ex_proj. destruct k as [|[|[|k]]]; [| | |lia]; cbn; lra. }
  assert (B : forall k, (k < 3)%nat -> regeneration ex_dot true true ex_t 4 ex_proj (one_st x y s) (with_ext (one_c s) (fun _ _ _ => x)) old fold 0 0 k = x).
  { intros k K. rewrite regeneration_eq by (exact Hs || cbn; lia). unfold sources_at, factor, nc_source, rsum, ex_proj.
    destruct k as [|[|[|k]]]; [| | |lia]; cbn; lra. }
  intros i j Hi Hj.
  set (d := if Nat.eqb i j then - 2 * (x / 2 + y * exp (- (2 * s))) + x else 0).
  assert (E : rhs 3 mzero (diag (absorption true ex_t ex_proj (with_ext (one_c s) (fun _ _ _ => x)) old 0 0))
    (diag (regeneration ex_dot true true ex_t 4 ex_proj (one_st x y s) (with_ext (one_c s) (fun _ _ _ => x)) old fold 0 0)) (diag (one_st x y s 0 0)) i j = rtc d).
  { unfold d, rhs, coherent, anti, mplus, mscale.
    assert (M3 : diag (regeneration ex_dot true true ex_t 4 ex_proj (one_st x y s) (with_ext (one_c s) (fun _ _ _ => x)) old fold 0 0) i j = if Nat.eqb i j then rtc x else c0).
    { unfold diag. rewrite (B i Hi). reflexivity. }
    rewrite M3.
    assert (M1 : mmult 3 (diag (absorption true ex_t ex_proj (with_ext (one_c s) (fun _ _ _ => x)) old 0 0)) (diag (one_st x y s 0 0)) i j = diag (one_st x y s 0 0) i j).
    { unfold mmult. rewrite (csum_single 3 i) by (assumption || (intros q _ N; unfold diag; rewrite (proj2 (Nat.eqb_neq i q)) by congruence; apply Ceq; cbn; ring)).
      unfold diag at 1. rewrite Nat.eqb_refl, (A i Hi). apply Ceq; cbn; ring. }
    assert (M2 : mmult 3 (diag (one_st x y s 0 0)) (diag (absorption true ex_t ex_proj (with_ext (one_c s) (fun _ _ _ => x)) old 0 0)) i j = diag (one_st x y s 0 0) i j).
    { unfold mmult. rewrite (csum_single 3 j) by (assumption || (intros q _ N; unfold diag at 2; rewrite (proj2 (Nat.eqb_neq q j)) by congruence; apply Ceq; cbn; ring)).
      unfold diag at 2. rewrite Nat.eqb_refl, (A j Hj). apply Ceq; cbn; ring. }
    rewrite M1, M2. unfold diag, one_st.
    replace (mmult 3 mzero _ i j) with c0 by (symmetry; apply csum_zero; intros; apply Ceq; cbn; ring).
    replace (mmult 3 _ mzero i j) with c0 by (symmetry; apply csum_zero; intros; apply Ceq; cbn; ring).
    destruct (Nat.eqb i j); apply Ceq; cbn; lra. }
  rewrite E. unfold d, diag, one_st. destruct (Nat.eqb i j); cbn; split; try apply (derivable_pt_lim_const 0).
  replace (-2 * (x / 2 + y * exp (- (2 * s))) + x) with (0 + y * (exp (- (2 * s)) * (-2))) by lra.
  apply (derivable_pt_lim_plus (fun _ => x / 2) (fun u => y * exp (- (2 * u)))); [apply derivable_pt_lim_const|].
  apply (derivable_pt_lim_scal (fun u => exp (- (2 * u)))).
  apply (derivable_pt_lim_comp (fun u => - (2 * u)) exp).
  - pose proof (derivable_pt_lim_opp _ _ _ (derivable_pt_lim_scal id 2 s 1 (derivable_pt_lim_id s))) as D. rewrite Rmult_1_r in D. exact D.
  - apply derivable_pt_lim_exp.
Qed.
Example c90_case : su_repr 3 diag ex_dot /\ setup 3 diag ex_t 4 1 1 0 1 (fun _ _ _ => mzero) (fun _ => ex_proj) one_c /\
  (forall s old fold, solves_at 3 diag ex_dot true true ex_t 4 mzero ex_proj (with_ext (one_c s) (fun _ _ _ => 0)) old fold (one_st 0 1) s 0 0 /\
    solves_at 3 diag ex_dot true true ex_t 4 mzero ex_proj (with_ext (one_c s) (fun _ _ _ => 1)) old fold (one_st 1 0) s 0 0 /\
    solves_at 3 diag ex_dot true true ex_t 4 mzero ex_proj (with_ext (one_c s) (fun _ _ _ => 3)) old fold (one_st 3 2) s 0 0) /\
  (forall s, tau_fair (one_c s) (flux_of true ex_dot ex_proj (one_st 0 1 s))) /\
  (forall k, one_st 3 2 0 0 0 k = 2 * one_st 0 1 0 0 0 k + 3 * one_st 1 0 0 0 0 k).
Proof.
  split; [apply diag_repr|]. split; [apply one_setup|]. split; [intros; split; [|split]; apply one_solves|].
  split; [intros s H; discriminate|]. intro k. unfold one_st. lra.
Qed.

Print Assumptions c90_additive.
Print Assumptions c90_unique.
Print Assumptions c90_same_readout.
Print Assumptions c90_combination.
Print Assumptions c90_superposition.
Print Assumptions c90_purity.
Print Assumptions c90_top.
Print Assumptions c90_negative_refuted.
