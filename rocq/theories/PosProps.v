(** C91: fluxes that are not negative stay so. *)
From Coq Require Import Reals List Arith Bool Lia Lra.
From Verif Require Import Err CMatrix FlavorModel FlavorProofs FlavorProps AvgProofs.
From Verif Require Import TauModel XsModel XsProofs IntModel IntProofs IntLayoutProofs IntProps SuperModel SuperProofs SuperProps PosProofs.
Import ListNotations.
Local Open Scope R_scope.

Lemma flux_of_dot osc dot proj st r f e : flux_of osc dot proj st r f e = dot (proj r f (if osc then e else 0%nat)) (st e r).
Proof. unfold flux_of, fluxe, flux0. destruct osc; reflexivity. Qed.

Section Evolution.
Variable n : nat.
Variable mat_of : vec -> mat.
Variable dot : vec -> vec -> R.
Hypothesis su : su_repr n mat_of dot.
Variables inter osc : bool.
Variable tb : itables.
Variables rne ne nr : nat.
Variables t0 t1 : R.
Variable Hm : R -> nat -> nat -> mat.
Variable proj : R -> nat -> nat -> nat -> vec.
Variable c : R -> iconf.
Hypothesis ok : setup n mat_of tb rne ne nr t0 t1 Hm proj c.
(** Sources are not negative, and all their projectors are projectors. *)
Definition good_sources : Prop := forall s r f e, t0 <= s <= t1 -> c_src (c s) = true -> (r < nr)%nat -> (f < c_numneu (c s))%nat -> (e < ne)%nat ->
  projector n (mat_of (proj s r f e)) /\ 0 <= c_ext (c s) e r f.

(** ** Combinations of projectors *)
Lemma comb_closed (Q : mat -> Prop) : (forall A B, meq n A B -> Q A -> Q B) -> Q mzero -> (forall A B, Q A -> Q B -> Q (mplus A B)) ->
  forall m lo (v : nat -> vec), (forall f, (lo <= f < lo + m)%nat -> Q (mat_of (v f))) ->
  Q (mat_of (fun k => rsum lo (lo + m) (fun f => v f k))).
Proof.
  intros Qm Q0 Qp m. induction m as [|m IH]; intros lo v Hv.
  - apply (Qm mzero); [|exact Q0]. apply meq_sym. eapply meq_trans; [|apply (mat_vzero n mat_of dot su)]. apply (su_ext _ _ _ su).
    intros k _. rewrite rsum_nil by lia. reflexivity.
  - apply (Qm (mplus (mat_of (v lo)) (mat_of (fun k => rsum (S lo) (S lo + m) (fun f => v f k))))).
    + apply meq_sym. eapply meq_trans; [|apply (su_add _ _ _ su)]. apply (su_ext _ _ _ su). intros k _.
      rewrite rsum_first by lia. unfold vadd. replace (lo + S m)%nat with (S lo + m)%nat by lia. reflexivity.
    + apply Qp; [apply Hv; lia|apply IH; intros; apply Hv; lia].
Qed.

(** The regeneration belongs to every set of matrices that holds the projectors and is closed
    under addition and multiplication with numbers that are not negative. *)
Lemma regeneration_closed (Q : mat -> Prop) : (forall A B, meq n A B -> Q A -> Q B) -> Q mzero -> (forall A B, Q A -> Q B -> Q (mplus A B)) ->
  (forall x A, 0 <= x -> Q A -> Q (mscale x A)) -> (forall P, projector n P -> Q P) ->
  forall s st old fold e r, good_sources -> t0 <= s <= t1 -> (e < ne)%nat -> (r < nr)%nat ->
  (inter = true -> forall r f e2, (r < nr)%nat -> (f < 3)%nat -> (e < e2 < ne)%nat -> 0 <= flux_of osc dot (proj s) st r f e2) ->
  Q (mat_of (regeneration dot inter osc tb rne (proj s) st (c s) old fold e r)).
Proof.
  intros Qm Q0 Qp Qs Qpr s st old fold e r Src S He Hr Fl.
  destruct (st_conf _ _ _ _ _ _ _ _ _ _ _ ok s S) as (Hs & Hd & Hn & Ene & Enr). pose proof (st_pad _ _ _ _ _ _ _ _ _ _ _ ok) as Hp.
  assert (Qv : forall x v, 0 <= x -> Q (mat_of v) -> Q (mat_of (fun k => x * v k))).
  { intros x v X V. apply (Qm (mscale x (mat_of v))); [|apply Qs; assumption]. apply meq_sym. apply (su_scale _ _ _ su). }
  set (cut := fun (r f e2 : nat) => if (e <? e2)%nat then flux_of osc dot (proj s) st r f e2 else 0).
  set (V := fun k => (if inter then rsum 0 (0 + 3) (fun f => factor (c s) tb (update_lengths (c s) tb old) cut r f e * proj s r f (if osc then e else 0%nat) k) else 0)).
  set (W := fun k => if c_src (c s) then (if inter && negb osc then INR (c_nrhos (c s)) else 1) * rsum 0 (0 + c_numneu (c s)) (fun i => c_ext (c s) e r i * proj s r i e k) else 0).
  apply (Qm (mplus (mat_of V) (mat_of W))).
  - apply meq_sym. eapply meq_trans; [|apply (su_add _ _ _ su)]. apply (su_ext _ _ _ su). intros k _.
    rewrite regeneration_eq by (rewrite ?Ene, ?Enr; assumption || lia). unfold vadd, V, W, sources_at. rewrite !Nat.add_0_l. f_equal.
    destruct inter; [|reflexivity]. apply rsum_ext. intros f Hf. f_equal. apply factor_ext; [exact Hs|lia|lia|].
    intros r2 f2 e2 _ _ E2. unfold cut. rewrite (proj2 (Nat.ltb_lt e e2)) by lia. reflexivity.
  - apply Qp.
    + unfold V. destruct inter eqn:In.
      * apply comb_closed; try assumption. intros f Hf. apply Qv.
        -- apply factor_nonneg; try assumption; try lia; [apply (st_tab _ _ _ _ _ _ _ _ _ _ _ ok)|].
           intros r2 f2 e2 R2 F2 E2. unfold cut. destruct (Nat.ltb_spec e e2); [|lra]. apply (Fl eq_refl); lia.
        -- apply Qpr. apply (st_proj _ _ _ _ _ _ _ _ _ _ _ ok); try assumption; try lia. destruct osc; lia.
      * apply (Qm mzero); [apply meq_sym; apply (mat_vzero n mat_of dot su)|exact Q0].
    + unfold W. destruct (c_src (c s)) eqn:Sr.
      * apply (Qv _ (fun k => rsum 0 (0 + c_numneu (c s)) (fun i => c_ext (c s) e r i * proj s r i e k))).
        -- destruct (inter && negb osc)%bool; [apply pos_INR|lra].
        -- apply comb_closed; try assumption. intros f Hf. destruct (Src s r f e S Sr Hr ltac:(lia) He) as [P X].
           apply Qv; [exact X|apply Qpr, P].
      * apply (Qm mzero); [apply meq_sym; apply (mat_vzero n mat_of dot su)|exact Q0].
Qed.

Lemma absorption_hermitian s old e r : t0 <= s <= t1 -> (r < nr)%nat -> (e < ne)%nat -> hermitian n (mat_of (absorption inter tb (proj s) (c s) old e r)).
Proof.
  intros S Hr He. unfold absorption. destruct inter; [|apply (herm_meq n mzero); [apply meq_sym, (mat_vzero n mat_of dot su)|apply herm_zero]].
  destruct (st_conf _ _ _ _ _ _ _ _ _ _ _ ok s S) as (Hs & Hd & _ & Ene & Enr).
  eapply herm_meq; [apply meq_sym; apply (su_ext _ _ _ su); intros k _; rewrite c65_absorption by (assumption || lia); reflexivity|].
  apply (comb_closed (hermitian n) (herm_meq n) (herm_zero n) (herm_plus n) 3 0).
  intros f Hf. eapply herm_meq; [apply meq_sym; apply (su_scale _ _ _ su)|]. apply herm_scale.
  apply (st_proj _ _ _ _ _ _ _ _ _ _ _ ok); assumption || lia.
Qed.

(** *** States that are not negative stay so: whatever the medium, the interactions and the sources *)
Theorem c91_positive old fold st : t0 <= t1 -> good_sources ->
  (forall s e r, t0 <= s <= t1 -> (e < ne)%nat -> (r < nr)%nat ->
     solves_at n mat_of dot inter osc tb rne (Hm s e r) (proj s) (c s) (old s) (fold s) st s e r) ->
  (forall e r, (e < ne)%nat -> (r < nr)%nat -> psd n (mat_of (st t0 e r))) ->
  forall s e r, t0 <= s <= t1 -> (e < ne)%nat -> (r < nr)%nat -> psd n (mat_of (st s e r)).
Proof.
  intros L Src D I.
  assert (K : forall d e, (e + d = ne)%nat -> (e < ne)%nat -> forall s r, t0 <= s <= t1 -> (r < nr)%nat -> psd n (mat_of (st s e r))).
  { intro d. induction d as [d IH] using (well_founded_induction lt_wf). intros e E He s r S Hr.
    apply (stays_psd n (fun u => mat_of (st u e r)) (fun u => Hm u e r)
      (fun u => mat_of (absorption inter tb (proj u) (c u) (old u) e r))
      (fun u => mat_of (regeneration dot inter osc tb rne (proj u) (st u) (c u) (old u) (fold u) e r)) t0 t1 L); [|apply I; assumption|exact S].
    intros u U. split; [apply (st_ham _ _ _ _ _ _ _ _ _ _ _ ok); assumption|]. split; [apply absorption_hermitian; assumption|].
    split; [apply (absorption_psd n mat_of dot su inter tb rne ne nr t0 t1 Hm proj c ok); assumption|].
    split; [|apply D; assumption].
    apply (regeneration_closed (psd n) (psd_meq n) (psd_zero n) (psd_plus n) (psd_scale n) (psd_projector n)); try assumption.
    intros _ r2 f2 e2 R2 F2 E2. unfold flux_of, fluxe, flux0.
    assert (X : psd n (mat_of (st u e2 r2))) by (apply (IH (ne - e2)%nat); try assumption; lia).
    destruct osc; rewrite (su_dot _ _ _ su); apply psd_content; try exact X; apply (st_proj _ _ _ _ _ _ _ _ _ _ _ ok); assumption || lia. }
  intros s e r S He Hr. apply (K (ne - e)%nat e); try assumption; lia.
Qed.

(** *** So no content of any flavour, mass or other state is ever negative *)
Theorem c91_contents old fold st p : t0 <= t1 -> good_sources ->
  (forall s e r, t0 <= s <= t1 -> (e < ne)%nat -> (r < nr)%nat ->
     solves_at n mat_of dot inter osc tb rne (Hm s e r) (proj s) (c s) (old s) (fold s) st s e r) ->
  (forall e r, (e < ne)%nat -> (r < nr)%nat -> psd n (mat_of (st t0 e r))) -> projector n (mat_of p) ->
  forall s e r, t0 <= s <= t1 -> (e < ne)%nat -> (r < nr)%nat -> 0 <= dot p (st s e r).
Proof.
  intros L Src D I P s e r S He Hr. rewrite (su_dot _ _ _ su). apply psd_content; [exact P|].
  apply (c91_positive old fold st L Src D I); assumption.
Qed.

(** *** Hermitian states stay hermitian, negative contents or not, if the factors have the right sign *)
Theorem c91_hermitian old fold st : t0 <= t1 -> good_sources ->
  (forall s e r, t0 <= s <= t1 -> (e < ne)%nat -> (r < nr)%nat ->
     solves_at n mat_of dot inter osc tb rne (Hm s e r) (proj s) (c s) (old s) (fold s) st s e r) ->
  (forall e r, (e < ne)%nat -> (r < nr)%nat -> psd n (mat_of (st t0 e r)) /\ hermitian n (mat_of (st t0 e r))) ->
  forall s e r, t0 <= s <= t1 -> (e < ne)%nat -> (r < nr)%nat -> hermitian n (mat_of (st s e r)).
Proof.
  intros L Src D I s e r S He Hr.
  apply (stays_hermitian n (fun u => mat_of (st u e r)) (fun u => Hm u e r)
    (fun u => mat_of (absorption inter tb (proj u) (c u) (old u) e r))
    (fun u => mat_of (regeneration dot inter osc tb rne (proj u) (st u) (c u) (old u) (fold u) e r)) t0 t1 L); [|apply I; assumption|exact S].
  intros u U. split; [apply (st_ham _ _ _ _ _ _ _ _ _ _ _ ok); assumption|]. split; [apply absorption_hermitian; assumption|].
  split; [apply (absorption_psd n mat_of dot su inter tb rne ne nr t0 t1 Hm proj c ok); assumption|].
  split; [|apply D; assumption].
  apply (regeneration_closed (hermitian n) (herm_meq n) (herm_zero n) (herm_plus n) (fun x A _ => herm_scale n x A) (fun P H => proj1 H)); try assumption.
  intros _ r2 f2 e2 R2 F2 E2. unfold flux_of, fluxe, flux0.
  assert (X : psd n (mat_of (st u e2 r2))) by (apply (c91_positive old fold st L Src D); try assumption; try lia; apply I).
  destruct osc; rewrite (su_dot _ _ _ su); apply psd_content; try exact X; apply (st_proj _ _ _ _ _ _ _ _ _ _ _ ok); assumption || lia.
Qed.

(** *** No tau flux is skipped: the test before the taus are counted leaves out only zeros *)
Theorem c91_taus old fold st : t0 <= t1 -> good_sources ->
  (forall s e r, t0 <= s <= t1 -> (e < ne)%nat -> (r < nr)%nat ->
     solves_at n mat_of dot inter osc tb rne (Hm s e r) (proj s) (c s) (old s) (fold s) st s e r) ->
  (forall e r, (e < ne)%nat -> (r < nr)%nat -> psd n (mat_of (st t0 e r))) ->
  forall s, t0 <= s <= t1 -> tau_fair (c s) (flux_of osc dot (proj s) (st s)).
Proof.
  intros L Src D I s S T e He.
  destruct (st_conf _ _ _ _ _ _ _ _ _ _ _ ok s S) as (Hs & Hd & _ & Ene & Enr).
  assert (N2 : nr = 2%nat). { destruct Hs as (Hb & _ & Ht & _). rewrite <- Enr. apply Hb, Ht, T. }
  assert (F : forall r, (r < 2)%nat -> 0 <= flux_of osc dot (proj s) (st s) r 2 e).
  { intros r Hr. rewrite flux_of_dot. apply (c91_contents old fold st _ L Src D I); try assumption; try lia.
    apply (st_proj _ _ _ _ _ _ _ _ _ _ _ ok); try assumption; try lia. destruct osc; lia. }
  pose proof (F 0%nat ltac:(lia)) as F0. pose proof (F 1%nat ltac:(lia)) as F1.
  destruct (Rle_lt_dec (flux_of osc dot (proj s) (st s) 0 2 e) 0); [|left; assumption].
  destruct (Rle_lt_dec (flux_of osc dot (proj s) (st s) 1 2 e) 0); [|right; left; assumption]. right; right. split; lra.
Qed.
End Evolution.

(** *** Non-negative fluxes add, without further conditions *)
Theorem c91_superposition n mat_of dot inter osc tb rne ne nr t0 t1 Hm proj c x1 x2 a b old1 old2 old3 fold1 fold2 fold3 st1 st2 st3 :
  su_repr n mat_of dot -> setup n mat_of tb rne ne nr t0 t1 Hm proj c -> t0 <= t1 -> 0 <= a -> 0 <= b ->
  good_sources n mat_of ne nr t0 t1 proj (fun s => with_ext (c s) (x1 s)) -> good_sources n mat_of ne nr t0 t1 proj (fun s => with_ext (c s) (x2 s)) ->
  (forall s e r, t0 <= s <= t1 -> (e < ne)%nat -> (r < nr)%nat ->
     solves n mat_of dot inter osc tb rne Hm proj c x1 old1 fold1 st1 s e r /\ solves n mat_of dot inter osc tb rne Hm proj c x2 old2 fold2 st2 s e r /\
     solves n mat_of dot inter osc tb rne Hm proj c (x3 x1 x2 a b) old3 fold3 st3 s e r) ->
  (forall e r, (e < ne)%nat -> (r < nr)%nat -> psd n (mat_of (st1 t0 e r)) /\ psd n (mat_of (st2 t0 e r))) ->
  (forall e r k, (e < ne)%nat -> (r < nr)%nat -> (k < n * n)%nat -> st3 t0 e r k = a * st1 t0 e r k + b * st2 t0 e r k) ->
  forall p s e r, t0 <= s <= t1 -> (e < ne)%nat -> (r < nr)%nat -> dot p (st3 s e r) = a * dot p (st1 s e r) + b * dot p (st2 s e r).
Proof.
  intros su ok L A B G1 G2 D I E.
  assert (okx : forall x, setup n mat_of tb rne ne nr t0 t1 Hm proj (fun u => with_ext (c u) (x u))).
  { intro x. destruct ok as [O1 O2 O3 O4 O5]. constructor; try assumption. }
  assert (F1 : fair dot inter osc t0 t1 proj c st1).
  { intros _ s S. apply (c91_taus n mat_of dot su inter osc tb rne ne nr t0 t1 Hm proj _ (okx x1) old1 fold1 st1 L G1); try assumption; [intros; apply D; assumption|intros; apply I; assumption]. }
  assert (F2 : fair dot inter osc t0 t1 proj c st2).
  { intros _ s S. apply (c91_taus n mat_of dot su inter osc tb rne ne nr t0 t1 Hm proj _ (okx x2) old2 fold2 st2 L G2); try assumption; [intros; apply D; assumption|intros; apply I; assumption]. }
  assert (F3 : fair dot inter osc t0 t1 proj c (combined a b st1 st2)).
  { intros In s S T e He. specialize (F1 In s S T e He). specialize (F2 In s S T e He).
    assert (V : forall r, flux_of osc dot (proj s) (combined a b st1 st2 s) r 2 e = a * flux_of osc dot (proj s) (st1 s) r 2 e + b * flux_of osc dot (proj s) (st2 s) r 2 e).
    { intro r. unfold flux_of, fluxe, flux0. destruct osc; apply (combined_dot n mat_of dot su). }
    rewrite !V.
    assert (Nn : forall r, (r < 2)%nat -> 0 <= flux_of osc dot (proj s) (st1 s) r 2 e /\ 0 <= flux_of osc dot (proj s) (st2 s) r 2 e).
    { intros r Hr. destruct (st_conf _ _ _ _ _ _ _ _ _ _ _ ok s S) as (Hs & Hd & _ & Ene & Enr).
      assert (N2 : nr = 2%nat). { destruct Hs as (Hb & _ & Ht & _). rewrite <- Enr. apply Hb, Ht, T. }
      assert (Pj : forall e, (e < ne)%nat -> projector n (mat_of (proj s r 2%nat e))) by (intros; apply (st_proj _ _ _ _ _ _ _ _ _ _ _ ok); assumption || lia).
      split.
      - rewrite flux_of_dot. apply (c91_contents n mat_of dot su inter osc tb rne ne nr t0 t1 Hm proj _ (okx x1) old1 fold1 st1 _ L G1); try assumption; try lia; 
          try (intros; apply D; assumption); try (intros; apply I; assumption). apply Pj. destruct osc; lia.
      - rewrite flux_of_dot. apply (c91_contents n mat_of dot su inter osc tb rne ne nr t0 t1 Hm proj _ (okx x2) old2 fold2 st2 _ L G2); try assumption; try lia; 
          try (intros; apply D; assumption); try (intros; apply I; assumption). apply Pj. destruct osc; lia. }
    destruct (Nn 0%nat ltac:(lia)) as [P1 P2]. destruct (Nn 1%nat ltac:(lia)) as [P3 P4].
    pose proof (Rmult_le_pos _ _ A P1). pose proof (Rmult_le_pos _ _ B P2). pose proof (Rmult_le_pos _ _ A P3). pose proof (Rmult_le_pos _ _ B P4).
    match goal with |- 0 < ?x \/ 0 < ?y \/ _ => destruct (Rle_lt_dec x 0); [|left; assumption]; destruct (Rle_lt_dec y 0); [|right; left; assumption] end.
    right; right. split; lra. }
  apply (c90_superposition n mat_of dot su inter osc tb rne ne nr t0 t1 Hm proj c ok x1 x2 a b old1 old2 old3 fold1 fold2 fold3 st1 st2 st3 L); assumption.
Qed.

(** ** More in, more out *)
Section Monotone.
Variable n : nat.
Variable mat_of : vec -> mat.
Variable dot : vec -> vec -> R.
Hypothesis su : su_repr n mat_of dot.
Variables inter osc : bool.
Variable tb : itables.
Variables rne ne nr : nat.
Variables t0 t1 : R.
Variable Hm : R -> nat -> nat -> mat.
Variable proj : R -> nat -> nat -> nat -> vec.
Variable c : R -> iconf.
Hypothesis ok : setup n mat_of tb rne ne nr t0 t1 Hm proj c.

Lemma setup_ext x : setup n mat_of tb rne ne nr t0 t1 Hm proj (fun u => with_ext (c u) (x u)).
Proof. destruct ok as [O1 O2 O3 O4 O5]. constructor; try assumption. Qed.
Lemma nonneg_fair cf flux : (c_tau cf = true -> forall r e, (r < 2)%nat -> (e < c_ne cf)%nat -> 0 <= flux r 2%nat e) -> tau_fair cf flux.
Proof.
  intros H T e He. pose proof (H T 0%nat e ltac:(lia) He). pose proof (H T 1%nat e ltac:(lia) He).
  destruct (Rle_lt_dec (flux 0%nat 2%nat e) 0); [|left; assumption].
  destruct (Rle_lt_dec (flux 1%nat 2%nat e) 0); [|right; left; assumption]. right; right. split; lra.
Qed.

(** the regeneration for given fluxes above the node *)
Definition form (cf : iconf) (old : istate) (pr : nat -> nat -> nat -> vec) (flux : nat -> nat -> nat -> R) (x : nat -> R) (e r : nat) : vec := fun k =>
  (if inter then rsum 0 3 (fun f => factor cf tb (update_lengths cf tb old) flux r f e * pr r f (if osc then e else 0%nat) k) else 0)
  + (if c_src cf then (if inter && negb osc then INR (c_nrhos cf) else 1) * rsum 0 (c_numneu cf) (fun i => x i * pr r i e k) else 0).
Definition cut (e : nat) (flux : nat -> nat -> nat -> R) (r f e2 : nat) : R := if (e <? e2)%nat then flux r f e2 else 0.

Lemma regeneration_form s st x old old' fold e r k : t0 <= s <= t1 -> (e < ne)%nat -> (r < nr)%nat ->
  regeneration dot inter osc tb rne (proj s) st (with_ext (c s) x) old' fold e r k = form (c s) old (proj s) (cut e (flux_of osc dot (proj s) st)) (x e r) e r k.
Proof.
  intros S He Hr. destruct (st_conf _ _ _ _ _ _ _ _ _ _ _ ok s S) as (Hs & Hd & Hn & Ene & Enr). pose proof (st_pad _ _ _ _ _ _ _ _ _ _ _ ok) as Hp.
  rewrite regeneration_eq by (first [exact Hs | cbn [with_ext c_ne c_nrhos]; lia]). unfold form, sources_at. cbn [with_ext c_src c_nrhos c_numneu c_ext]. f_equal.
  destruct inter; [|reflexivity]. apply rsum_ext. intros f Hf. f_equal.
  change (factor (with_ext (c s) x) tb (update_lengths (with_ext (c s) x) tb old')) with (factor (c s) tb (update_lengths (c s) tb old')).
  assert (W : same_nodes (c s) tb tb) by (intros g r0 f0 e2 e1 _ _; repeat split).
  rewrite (factor_nodes (c s) tb tb old' old _ r f e Hs Hd W) by lia. apply factor_ext; [exact Hs|lia|lia|].
  intros r2 f2 e2 _ _ E2. unfold cut. rewrite (proj2 (Nat.ltb_lt e e2)) by lia. reflexivity.
Qed.
Lemma form_psd s flux x old e r : t0 <= s <= t1 -> (e < ne)%nat -> (r < nr)%nat ->
  (forall f, (f < c_numneu (c s))%nat -> c_src (c s) = true -> projector n (mat_of (proj s r f e)) /\ 0 <= x f) ->
  (forall r f e, (r < nr)%nat -> (f < 3)%nat -> (e < ne)%nat -> 0 <= flux r f e) ->
  psd n (mat_of (form (c s) old (proj s) flux x e r)).
Proof.
  intros S He Hr Src Fl. destruct (st_conf _ _ _ _ _ _ _ _ _ _ _ ok s S) as (Hs & Hd & Hn & Ene & Enr).
  assert (Qv : forall y v, 0 <= y -> psd n (mat_of v) -> psd n (mat_of (fun k => y * v k))).
  { intros y v X V. apply (psd_meq n (mscale y (mat_of v))); [|apply psd_scale; assumption]. apply meq_sym. apply (su_scale _ _ _ su). }
  assert (Q0 : psd n (mat_of (fun _ => 0))) by (apply (psd_meq n mzero); [apply meq_sym; apply (mat_vzero n mat_of dot su)|apply psd_zero]).
  unfold form. eapply psd_meq; [apply meq_sym; apply (su_add _ _ _ su)|]. apply psd_plus.
  - destruct inter; [|exact Q0]. apply (comb_closed n mat_of dot su (psd n) (psd_meq n) (psd_zero n) (psd_plus n) 3 0). intros f Hf. apply Qv.
    + apply factor_nonneg; try assumption; try lia; [apply (st_tab _ _ _ _ _ _ _ _ _ _ _ ok)|]. intros r2 f2 e2 R2 F2 E2. apply Fl; lia.
    + apply psd_projector. apply (st_proj _ _ _ _ _ _ _ _ _ _ _ ok); try assumption; try lia. destruct osc; lia.
  - destruct (c_src (c s)) eqn:Sr; [|exact Q0].
    apply (Qv _ (fun k => rsum 0 (c_numneu (c s)) (fun i => x i * proj s r i e k))).
    + destruct (inter && negb osc)%bool; [apply pos_INR|lra].
    + apply (comb_closed n mat_of dot su (psd n) (psd_meq n) (psd_zero n) (psd_plus n) (c_numneu (c s)) 0). intros f Hf.
      destruct (Src f ltac:(lia) eq_refl) as [P X]. apply Qv; [exact X|apply psd_projector, P].
Qed.
Lemma form_minus s f1 f2 y1 y2 old e r k : t0 <= s <= t1 -> (e < ne)%nat -> (r < nr)%nat ->
  (forall r f e, (r < nr)%nat -> (f < 3)%nat -> (e < ne)%nat -> 0 <= f1 r f e <= f2 r f e) ->
  form (c s) old (proj s) f2 y2 e r k - form (c s) old (proj s) f1 y1 e r k =
  form (c s) old (proj s) (fun r f e => f2 r f e - f1 r f e) (fun i => y2 i - y1 i) e r k.
Proof.
  intros S He Hr Fl. destruct (st_conf _ _ _ _ _ _ _ _ _ _ _ ok s S) as (Hs & Hd & Hn & Ene & Enr).
  assert (Fair : forall flux, (forall r f e, (r < nr)%nat -> (f < 3)%nat -> (e < ne)%nat -> 0 <= flux r f e) -> tau_fair (c s) flux).
  { intros flux H. apply nonneg_fair. intros T r2 e2 R2 E2. apply H; [|lia|lia].
    destruct Hs as (Hb & _ & Ht & _). rewrite <- Enr, (Hb (Ht T)). lia. }
  unfold form.
  assert (A : inter = true -> rsum 0 3 (fun f => factor (c s) tb (update_lengths (c s) tb old) (fun r f e => f2 r f e - f1 r f e) r f e * proj s r f (if osc then e else 0%nat) k) =
    1 * rsum 0 3 (fun f => factor (c s) tb (update_lengths (c s) tb old) f2 r f e * proj s r f (if osc then e else 0%nat) k) +
    -1 * rsum 0 3 (fun f => factor (c s) tb (update_lengths (c s) tb old) f1 r f e * proj s r f (if osc then e else 0%nat) k)).
  { intros _. apply rsum_lin. intros f Hf.
    rewrite (factor_lin (c s) tb _ f2 f1 _ 1 (-1) r f e Hs); [ring|lia|lia| | | |intros; ring]; apply Fair; intros r2 f3 e2 R2 F2 E2; destruct (Fl r2 f3 e2 R2 F2 E2); lra. }
  assert (B : rsum 0 (c_numneu (c s)) (fun i => (y2 i - y1 i) * proj s r i e k) =
    1 * rsum 0 (c_numneu (c s)) (fun i => y2 i * proj s r i e k) + -1 * rsum 0 (c_numneu (c s)) (fun i => y1 i * proj s r i e k)) by (apply rsum_lin; intros; ring).
  rewrite B. destruct inter; [rewrite A by reflexivity|]; destruct (c_src (c s)); ring.
Qed.

(** *** Larger fluxes and sources give larger read-outs *)
Theorem c91_monotone x1 x2 old1 old2 fold1 fold2 st1 st2 p : t0 <= t1 ->
  good_sources n mat_of ne nr t0 t1 proj (fun s => with_ext (c s) (x1 s)) ->
  (forall s e r i, t0 <= s <= t1 -> (e < ne)%nat -> (r < nr)%nat -> x1 s e r i <= x2 s e r i) ->
  (forall s e r, t0 <= s <= t1 -> (e < ne)%nat -> (r < nr)%nat ->
     solves n mat_of dot inter osc tb rne Hm proj c x1 old1 fold1 st1 s e r /\ solves n mat_of dot inter osc tb rne Hm proj c x2 old2 fold2 st2 s e r) ->
  (forall e r, (e < ne)%nat -> (r < nr)%nat -> psd n (mat_of (st1 t0 e r)) /\ psd n (mminus (mat_of (st2 t0 e r)) (mat_of (st1 t0 e r)))) ->
  projector n (mat_of p) ->
  forall s e r, t0 <= s <= t1 -> (e < ne)%nat -> (r < nr)%nat -> dot p (st1 s e r) <= dot p (st2 s e r).
Proof.
  intros L G1 Lx D I P.
  assert (P1 : forall s e r, t0 <= s <= t1 -> (e < ne)%nat -> (r < nr)%nat -> psd n (mat_of (st1 s e r))).
  { apply (c91_positive n mat_of dot su inter osc tb rne ne nr t0 t1 Hm proj _ (setup_ext x1) old1 fold1 st1 L G1).
    - intros s e r S He Hr. apply D; assumption.
    - intros e r He Hr. apply I; assumption. }
  assert (Gap : forall q a b, projector n (mat_of q) -> psd n (mminus (mat_of a) (mat_of b)) -> dot q b <= dot q a).
  { intros q a b Q X. pose proof (psd_content n _ _ Q X) as Y. rewrite !(su_dot _ _ _ su).
    rewrite (trace_meq n _ (mminus (mmult n (mat_of q) (mat_of a)) (mmult n (mat_of q) (mat_of b))) (mmult_minus_r n _ _ _)) in Y.
    unfold mminus in Y. rewrite trace_plus, trace_scale in Y. cbn in Y. lra. }
  assert (K : forall d e, (e + d = ne)%nat -> (e < ne)%nat -> forall s r, t0 <= s <= t1 -> (r < nr)%nat -> psd n (mminus (mat_of (st2 s e r)) (mat_of (st1 s e r)))).
  { intro d. induction d as [d IH] using (well_founded_induction lt_wf). intros e E He s r S Hr.
    set (G := fun u => mat_of (absorption inter tb (proj u) (with_ext (c u) (x1 u)) (old1 u) e r)).
    set (R1 := fun u => regeneration dot inter osc tb rne (proj u) (st1 u) (with_ext (c u) (x1 u)) (old1 u) (fold1 u) e r).
    set (R2 := fun u => regeneration dot inter osc tb rne (proj u) (st2 u) (with_ext (c u) (x2 u)) (old2 u) (fold2 u) e r).
    apply (stays_psd n (fun u => mminus (mat_of (st2 u e r)) (mat_of (st1 u e r))) (fun u => Hm u e r) G (fun u => mminus (mat_of (R2 u)) (mat_of (R1 u))) t0 t1 L); [|apply I; assumption|exact S].
    intros u U. split; [apply (st_ham _ _ _ _ _ _ _ _ _ _ _ ok); assumption|].
    split; [apply (absorption_hermitian n mat_of dot su inter tb rne ne nr t0 t1 Hm proj _ (setup_ext x1)); assumption|].
    split; [apply (absorption_psd n mat_of dot su inter tb rne ne nr t0 t1 Hm proj _ (setup_ext x1)); assumption|]. split.
    - eapply psd_meq; [|apply (form_psd u (fun r f e2 => cut e (flux_of osc dot (proj u) (st2 u)) r f e2 - cut e (flux_of osc dot (proj u) (st1 u)) r f e2)
        (fun i => x2 u e r i - x1 u e r i) (old1 u) e r U He Hr)].
      + eapply meq_trans; [apply (su_ext _ _ _ su _ (vadd (R2 u) (vscale (-1) (R1 u))))|].
        * intros k _. rewrite <- form_minus; try assumption.
          -- unfold vadd, vscale, R1, R2. rewrite !(regeneration_form u _ _ (old1 u)) by assumption. ring.
          -- intros r2 f2 e2 Hr2 Hf2 He2. unfold cut. destruct (Nat.ltb_spec e e2); [|lra]. rewrite !flux_of_dot.
             assert (Pj : projector n (mat_of (proj u r2 f2 (if osc then e2 else 0%nat)))) by (apply (st_proj _ _ _ _ _ _ _ _ _ _ _ ok); try assumption; destruct osc; lia).
             split; [rewrite (su_dot _ _ _ su); apply psd_content; [exact Pj|apply P1; assumption]|].
             apply Gap; [exact Pj|]. apply (IH (ne - e2)%nat); try assumption; lia.
        * eapply meq_trans; [apply (su_add _ _ _ su)|]. apply mplus_meq; [apply meq_refl|apply (su_scale _ _ _ su)].
      + intros f Hf Sr. destruct (G1 u r f e U Sr Hr Hf He) as [Pj _]. split; [exact Pj|]. pose proof (Lx u e r f U He Hr). lra.
      + intros r2 f2 e2 Hr2 Hf2 He2. unfold cut. destruct (Nat.ltb_spec e e2); [|lra]. rewrite !flux_of_dot.
        assert (Pj : projector n (mat_of (proj u r2 f2 (if osc then e2 else 0%nat)))) by (apply (st_proj _ _ _ _ _ _ _ _ _ _ _ ok); try assumption; destruct osc; lia).
        assert (Y : dot (proj u r2 f2 (if osc then e2 else 0%nat)) (st1 u e2 r2) <= dot (proj u r2 f2 (if osc then e2 else 0%nat)) (st2 u e2 r2)); [|lra].
        apply Gap; [exact Pj|]. apply (IH (ne - e2)%nat); try assumption; lia.
    - destruct (D u e r U He Hr) as [D1 D2]. unfold solves, solves_at in D1, D2. fold (R1 u) in D1. fold (R2 u) in D2. fold (G u) in D1.
      assert (E2 : meq n (mat_of (absorption inter tb (proj u) (with_ext (c u) (x2 u)) (old2 u) e r)) (G u)).
      { unfold G. apply (absorption_old n mat_of dot su inter tb rne ne nr t0 t1 Hm proj _ (setup_ext x2) u (old2 u) (old1 u) e r U Hr He). }
      pose proof (mderiv_minus n _ _ u _ _ D2 D1) as M. eapply mderiv_meq; [|exact M].
      intros i j Hi Hj. unfold rhs, coherent, anti. unfold mminus at 1. unfold mplus, mscale.
      rewrite (mmult_minus_r n _ _ (Hm u e r) i j Hi Hj), (mmult_minus_l n _ _ (Hm u e r) i j Hi Hj), (mmult_minus_r n _ _ (G u) i j Hi Hj), (mmult_minus_l n _ _ (G u) i j Hi Hj).
      rewrite (mmult_meq n _ _ _ _ E2 (meq_refl n (mat_of (st2 u e r))) i j Hi Hj), (mmult_meq n _ _ _ _ (meq_refl n (mat_of (st2 u e r))) E2 i j Hi Hj).
      unfold mminus, mplus, mscale. apply Ceq; cbn; ring. }
  intros s e r S He Hr. apply Gap; [exact P|]. apply (K (ne - e)%nat e); try assumption; lia.
Qed.
End Monotone.

(** ** The number of neutrinos *)
Lemma rsum_tri m f : rsum 0 m (fun e => rsum (S e) m (fun e2 => f e e2)) = rsum 0 m (fun e2 => rsum 0 e2 (fun e => f e e2)).
Proof.
  induction m as [|m IH]; [rewrite !rsum_nil by lia; reflexivity|].
  rewrite (rsum_split 0 m (S m) (fun e2 => rsum 0 e2 (fun e => f e e2))) by lia. rewrite <- IH.
  rewrite (rsum_first m (S m)) by lia. rewrite (rsum_nil (S m) (S m)) by lia.
  rewrite (rsum_split 0 m (S m) (fun e => rsum (S e) (S m) (fun e2 => f e e2))) by lia.
  rewrite (rsum_first m (S m)) by lia. rewrite !(rsum_nil (S m) (S m)) by lia.
  rewrite (rsum_ext 0 m (fun e => rsum (S e) (S m) (fun e2 => f e e2)) (fun e => rsum (S e) m (fun e2 => f e e2) + f e m)).
  - rewrite rsum_plus. ring.
  - intros e He. rewrite (rsum_split (S e) m (S m)) by lia. rewrite (rsum_first m (S m)) by lia. rewrite (rsum_nil (S m) (S m)) by lia. ring.
Qed.
Lemma rsum_le' lo hi f g : (forall i, (lo <= i < hi)%nat -> f i <= g i) -> rsum lo hi f <= rsum lo hi g.
Proof.
  intro H. assert (X : 0 <= rsum lo hi (fun i => g i + -1 * f i)) by (apply rsum_nonneg; intros i Hi; specialize (H i Hi); lra).
  rewrite rsum_plus, rsum_scal in X. lra.
Qed.
Lemma rsum_swap' lo hi lo' hi' f : rsum lo hi (fun i => rsum lo' hi' (fun j => f i j)) = rsum lo' hi' (fun j => rsum lo hi (fun i => f i j)).
Proof.
  apply (rsum_ind (fun l s => s = rsum lo' hi' (fun j => rsum l hi (fun i => f i j)))).
  - intros l Hl. symmetry. apply rsum_zero. intros j _. apply rsum_nil, Hl.
  - intros l s Hl ->. rewrite <- rsum_plus. apply rsum_ext. intros j _. rewrite (rsum_first l hi) by exact Hl. reflexivity.
Qed.
Lemma rsum_deriv' lo hi (f : nat -> R -> R) d t : (forall i, (lo <= i < hi)%nat -> derivable_pt_lim (f i) t (d i)) ->
  derivable_pt_lim (fun s => rsum lo hi (fun i => f i s)) t (rsum lo hi d).
Proof.
  intro H. unfold rsum.
  assert (G : forall l, (forall i, In i l -> derivable_pt_lim (f i) t (d i)) ->
    derivable_pt_lim (fun s => fold_right Rplus 0 (map (fun i => f i s) l)) t (fold_right Rplus 0 (map d l))).
  { induction l as [|i l IH]; intro Hl; cbn [map fold_right]; [apply (derivable_pt_lim_const 0)|].
    apply (derivable_pt_lim_plus (f i) (fun s => fold_right Rplus 0 (map (fun i => f i s) l))); [apply Hl; left; reflexivity|apply IH; intros; apply Hl; right; assumption]. }
  apply G. intros i Hi. apply in_seq in Hi. apply H. lia.
Qed.
Lemma comb_functional n mat_of dot (phi : mat -> R) : su_repr n mat_of dot -> (forall A B, meq n A B -> phi A = phi B) ->
  (forall A B, phi (mplus A B) = phi A + phi B) -> (forall x A, phi (mscale x A) = x * phi A) ->
  forall m lo (x : nat -> R) (v : nat -> vec), phi (mat_of (fun k => rsum lo (lo + m) (fun f => x f * v f k))) = rsum lo (lo + m) (fun f => x f * phi (mat_of (v f))).
Proof.
  intros su Pm Pp Ps m. induction m as [|m IH]; intros lo x v.
  - rewrite (rsum_nil lo (lo + 0)) by lia.
    rewrite (Pm _ (mscale 0 (mat_of vzero))).
    + rewrite Ps. ring.
    + eapply meq_trans; [|apply (su_scale _ _ _ su)]. apply (su_ext _ _ _ su). intros k _. rewrite rsum_nil by lia. unfold vscale. ring.
  - rewrite (rsum_first lo (lo + S m)) by lia. replace (lo + S m)%nat with (S lo + m)%nat by lia. rewrite <- IH, <- Ps, <- Pp. apply Pm.
    eapply meq_trans; [|apply mplus_meq; [apply (su_scale _ _ _ su)|apply meq_refl]]. eapply meq_trans; [|apply (su_add _ _ _ su)].
    apply (su_ext _ _ _ su). intros k _. rewrite rsum_first by lia. reflexivity.
Qed.

Section Number.
Variable n : nat.
Variable mat_of : vec -> mat.
Variable dot : vec -> vec -> R.
Hypothesis su : su_repr n mat_of dot.
Variables inter osc : bool.
Variable tb : itables.
Variables rne ne nr : nat.
Variables t0 t1 : R.
Variable Hm : R -> nat -> nat -> mat.
Variable proj : R -> nat -> nat -> nat -> vec.
Variable c : R -> iconf.
Hypothesis ok : setup n mat_of tb rne ne nr t0 t1 Hm proj c.

Definition expected (A B : mat) : R := re (trace n (mmult n B A)).
Lemma expected_lin A : (forall B B', meq n B B' -> expected A B = expected A B') /\
  (forall B B', expected A (mplus B B') = expected A B + expected A B') /\ (forall x B, expected A (mscale x B) = x * expected A B).
Proof.
  unfold expected. split; [|split].
  - intros B B' E. f_equal. apply trace_meq, mmult_meq; [exact E|apply meq_refl].
  - intros B B'. rewrite (trace_meq n _ _ (mmult_plus_l n B B' A)), trace_plus. reflexivity.
  - intros x B. rewrite (trace_meq n _ _ (mmult_scale_l n x B A)), trace_scale. cbn. ring.
Qed.
Lemma trace_rhs H G I A : re (trace n (rhs n H G I A)) = -2 * expected A G + re (trace n I).
Proof.
  unfold rhs, expected. rewrite !trace_plus, trace_scale. unfold anti. rewrite trace_plus, (trace_cycle n A G).
  assert (C : trace n (coherent n H A) = c0).
  { unfold coherent, trace. rewrite csum_mult_l.
    assert (X : csum n (fun i => cminus (mmult n H A i i) (mmult n A H i i)) = cminus (trace n (mmult n H A)) (trace n (mmult n A H))).
    { unfold cminus, trace. replace (copp (csum n (fun i => mmult n A H i i))) with (cmult (mkC (-1) 0) (csum n (fun i => mmult n A H i i))) by (apply Ceq; cbn; ring).
      rewrite <- csum_mult_l, <- csum_plus. apply csum_ext. intros. apply Ceq; cbn; ring. }
    rewrite X, (trace_cycle n H A). apply Ceq; cbn; ring. }
  rewrite C. cbn. ring.
Qed.

(** A weighted number of neutrinos of one kind, summed over nodes and flavours. *)
Definition number (w : nat -> R) (st : nat -> nat -> vec) (r : nat) : R := rsum 0 ne (fun e => w e * re (trace n (mat_of (st e r)))).

(** *** Neutral and charged currents never increase the number of neutrinos, if the neutral current spectra
    weigh no more than the interactions that made them *)
Theorem c91_number w old fold st r : t0 <= t1 -> (r < nr)%nat -> (forall e, 0 <= w e) ->
  (forall s, t0 <= s <= t1 -> c_src (c s) = false /\ c_tau (c s) = false /\ c_gr (c s) = false) ->
  (forall s f e, t0 <= s <= t1 -> (f < 3)%nat -> (e < ne)%nat -> re (trace n (mat_of (proj s r f e))) = 1 /\ (osc = false -> proj s r f e = proj s r f 0%nat)) ->
  (forall s f e2, t0 <= s <= t1 -> (f < 3)%nat -> (e2 < ne)%nat ->
     rsum 0 e2 (fun e => w e * rsum 0 (length (c_dens (c s))) (fun g => fr (c s) g * t_dNC tb g r f e2 e)) * c_delE (c s) (e2 - 1) <= w e2) ->
  (forall s e r, t0 <= s <= t1 -> (e < ne)%nat -> (r < nr)%nat ->
     solves_at n mat_of dot inter osc tb rne (Hm s e r) (proj s) (c s) (old s) (fold s) st s e r) ->
  (forall e r, (e < ne)%nat -> (r < nr)%nat -> psd n (mat_of (st t0 e r))) ->
  forall s, t0 <= s <= t1 -> number w (st s) r <= number w (st t0) r.
Proof.
  intros L Hr W0 Off Tr Row D I s HS.
  assert (Src : good_sources n mat_of ne nr t0 t1 proj c) by (intros u r2 f e U Sr; destruct (Off u U) as [O _]; congruence).
  destruct (Req_dec t0 s) as [->|N]; [lra|].
  set (dr := fun u => rsum 0 ne (fun e => w e * re (trace n (rhs n (Hm u e r) (mat_of (absorption inter tb (proj u) (c u) (old u) e r))
    (mat_of (regeneration dot inter osc tb rne (proj u) (st u) (c u) (old u) (fold u) e r)) (mat_of (st u e r)))))).
  destruct (MVT_cor2 (fun u => number w (st u) r) dr t0 s) as (v & E & V).
  - lra.
  - intros u U. unfold number, dr. apply (rsum_deriv' 0 ne (fun e u => w e * re (trace n (mat_of (st u e r))))). intros e He.
    apply (derivable_pt_lim_scal (fun u => re (trace n (mat_of (st u e r))))). apply (trace_deriv n (fun u => mat_of (st u e r))). apply D; [lra|lia|exact Hr].
  - cbv beta in E. assert (Vt : t0 <= v <= t1) by lra.
    assert (Z : dr v <= 0); [|nra].
    destruct (st_conf _ _ _ _ _ _ _ _ _ _ _ ok v Vt) as (Hs & Hd & (Dn & Fr & Y & Wd) & Ene & Enr). pose proof (st_pad _ _ _ _ _ _ _ _ _ _ _ ok) as Hp.
    destruct (Off v Vt) as (Osrc & Otau & Ogr).
    destruct (st_tab _ _ _ _ _ _ _ _ _ _ _ ok) as [N1 N2 N3 N4 N5 N6 N7 N8].
    set (ct := fun f e => dot (proj v r f e) (st v e r)).
    assert (Ct : forall f e, (f < 3)%nat -> (e < ne)%nat -> 0 <= ct f e).
    { intros f e Hf He. apply (c91_contents n mat_of dot su inter osc tb rne ne nr t0 t1 Hm proj c ok old fold st _ L Src D I); try assumption.
      apply (st_proj _ _ _ _ _ _ _ _ _ _ _ ok); assumption. }
    destruct inter eqn:In.
    + set (nc := fun f e => rsum 0 (length (c_dens (c v))) (fun g => t_sNC tb g r f e * nth g (c_dens (c v)) 0)).
      set (cc := fun f e => rsum 0 (length (c_dens (c v))) (fun g => t_sCC tb g r f e * nth g (c_dens (c v)) 0)).
      assert (Cc : forall f e, 0 <= cc f e) by (intros; apply rsum_nonneg; intros; apply Rmult_le_pos; auto).
      assert (Nc : forall f e, 0 <= nc f e) by (intros; apply rsum_nonneg; intros; apply Rmult_le_pos; auto).
      set (kr := fun f e2 e => rsum 0 (length (c_dens (c v))) (fun g => fr (c v) g * t_dNC tb g r f e2 e) * c_delE (c v) (e2 - 1)).
      assert (T : forall e, (e < ne)%nat -> re (trace n (rhs n (Hm v e r) (mat_of (absorption true tb (proj v) (c v) (old v) e r))
          (mat_of (regeneration dot true osc tb rne (proj v) (st v) (c v) (old v) (fold v) e r)) (mat_of (st v e r)))) =
        rsum 0 3 (fun f => rsum (S e) ne (fun e2 => ct f e2 * nc f e2 * kr f e2 e)) + rsum 0 3 (fun f => -1 * ((nc f e + cc f e) * ct f e))).
      { intros e He. rewrite trace_rhs, Rplus_comm. f_equal.
        - set (u := fun k => rsum 0 (0 + 3) (fun f => factor (c v) tb (update_lengths (c v) tb (old v)) (flux_of osc dot (proj v) (st v)) r f e * proj v r f (if osc then e else 0%nat) k)).
          replace (re (trace n (mat_of (regeneration dot true osc tb rne (proj v) (st v) (c v) (old v) (fold v) e r)))) with (re (trace n (mat_of u))).
          + unfold u. rewrite (comb_functional n mat_of dot (fun A => re (trace n A)) su).
            * cbv beta. rewrite Nat.add_0_l. apply rsum_ext. intros f Hf. 
              replace (re (trace n (mat_of (fun k => proj v r f (if osc then e else 0%nat) k)))) with 1 by (symmetry; apply (Tr v f (if osc then e else 0%nat) Vt); [lia|destruct osc; lia]).
              rewrite Rmult_1_r.
              unfold factor. rewrite Otau, Ogr. cbn [andb]. rewrite !Rplus_0_r. unfold nc_source. rewrite Ene. apply rsum_ext. intros e2 He2.
              unfold kr. match goal with |- _ = ?a * (?x * ?d) => replace (a * (x * d)) with ((a * d) * x) by ring end. rewrite <- rsum_scal. apply rsum_ext. intros g Hg. rewrite s_NC_eq by exact Hd.
              unfold len_sum. fold (nc f e2). rewrite flux_of_dot. unfold ct.
              replace (proj v r f (if osc then e2 else 0%nat)) with (proj v r f e2); [ring|].
              destruct osc eqn:Os; [reflexivity|]. apply (Tr v f e2 Vt ltac:(lia) ltac:(lia)). reflexivity.
            * intros A B Eq. f_equal. apply trace_meq, Eq.
            * intros A B. rewrite trace_plus. reflexivity.
            * intros x A. rewrite trace_scale. cbn. ring.
          + f_equal. apply trace_meq. apply (su_ext _ _ _ su). intros k _. rewrite regeneration_eq by (rewrite ?Ene, ?Enr; assumption || lia). rewrite Osrc. unfold u. rewrite Nat.add_0_l. ring.
        - set (g := fun f => 1 / 2 * (nc f e + cc f e)).
          replace (expected (mat_of (st v e r)) (mat_of (absorption true tb (proj v) (c v) (old v) e r))) with
            (expected (mat_of (st v e r)) (mat_of (fun k => rsum 0 (0 + 3) (fun f => g f * proj v r f e k)))).
          + destruct (expected_lin (mat_of (st v e r))) as (F1 & F2 & F3).
            rewrite (comb_functional n mat_of dot (expected (mat_of (st v e r))) su F1 F2 F3). rewrite Nat.add_0_l, <- rsum_scal. apply rsum_ext. intros f Hf.
            unfold expected. rewrite <- (su_dot _ _ _ su). change (dot (fun k => proj v r f e k) (st v e r)) with (ct f e). unfold g. lra.
          + apply expected_lin. apply (su_ext _ _ _ su). intros k _. unfold absorption. rewrite c65_absorption by (assumption || lia).
            apply rsum_ext. intros f Hf. unfold g, nc, cc. rewrite Ogr. cbn [andb]. rewrite <- rsum_plus, Rplus_0_r. f_equal. f_equal. apply rsum_ext. intros q _. ring. }
      unfold dr. rewrite (rsum_ext 0 ne _ (fun e => rsum 0 3 (fun f => w e * rsum (S e) ne (fun e2 => ct f e2 * nc f e2 * kr f e2 e)) + rsum 0 3 (fun f => w e * (-1 * ((nc f e + cc f e) * ct f e))))).
      2:{ intros e He. rewrite T by lia. rewrite !rsum_scal. ring. }
      rewrite rsum_plus, (rsum_swap' 0 ne 0 3), (rsum_swap' 0 ne 0 3), <- rsum_plus.
      apply Rle_trans with (rsum 0 3 (fun _ => 0)); [|right; apply rsum_zero; reflexivity]. apply rsum_le'. intros f Hf.
      rewrite (rsum_ext 0 ne (fun e => w e * rsum (S e) ne (fun e2 => ct f e2 * nc f e2 * kr f e2 e)) (fun e => rsum (S e) ne (fun e2 => ct f e2 * nc f e2 * (w e * kr f e2 e)))).
      2:{ intros e He. rewrite <- rsum_scal. apply rsum_ext. intros; ring. }
      rewrite (rsum_tri ne (fun e e2 => ct f e2 * nc f e2 * (w e * kr f e2 e))), <- rsum_plus.
      apply Rle_trans with (rsum 0 ne (fun _ => 0)); [|right; apply rsum_zero; reflexivity]. apply rsum_le'. intros e2 He2.
      rewrite rsum_scal. pose proof (Row v f e2 Vt ltac:(lia) ltac:(lia)) as Rw.
      assert (Rw' : rsum 0 e2 (fun e => w e * kr f e2 e) <= w e2).
      { eapply Rle_trans; [|exact Rw]. right. unfold kr. rewrite Rmult_comm, <- rsum_scal. apply rsum_ext. intros; ring. }
      pose proof (Ct f e2 ltac:(lia) ltac:(lia)) as C0. pose proof (Nc f e2) as N0. pose proof (Cc f e2) as K0. pose proof (W0 e2) as Wp.
      assert (X1 : 0 <= ct f e2 * nc f e2) by (apply Rmult_le_pos; assumption).
      assert (X2 : ct f e2 * nc f e2 * rsum 0 e2 (fun e => w e * kr f e2 e) <= ct f e2 * nc f e2 * w e2) by (apply Rmult_le_compat_l; assumption).
      assert (X3 : 0 <= w e2 * (cc f e2 * ct f e2)) by (apply Rmult_le_pos; [|apply Rmult_le_pos]; assumption). lra.
    + unfold dr. right. apply rsum_zero. intros e He. rewrite trace_rhs. unfold absorption. cbn iota.
      rewrite (proj1 (expected_lin (mat_of (st v e r))) _ _ (mat_vzero n mat_of dot su)).
      rewrite (trace_meq n (mat_of (regeneration dot false osc tb rne (proj v) (st v) (c v) (old v) (fold v) e r)) mzero).
      * unfold expected. rewrite (trace_meq n _ mzero).
        -- unfold trace. rewrite csum_zero by reflexivity. cbn. ring.
        -- intros i j _ _. apply csum_zero. intros. apply Ceq; cbn; ring.
      * eapply meq_trans; [|apply (mat_vzero n mat_of dot su)]. apply (su_ext _ _ _ su). intros k _. rewrite regeneration_eq by (rewrite ?Ene, ?Enr; assumption || lia).
        rewrite Osrc. unfold vzero. ring.
Qed.
End Number.

(** *** In the weights of the grid: widths of the bins, the lowest node left out *)
Theorem c91_bins n mat_of dot inter osc tb rne ne nr t0 t1 Hm proj c d old fold st r : su_repr n mat_of dot ->
  setup n mat_of tb rne ne nr t0 t1 Hm proj c -> t0 <= t1 -> (r < nr)%nat ->
  (forall s, t0 <= s <= t1 -> c_src (c s) = false /\ c_tau (c s) = false /\ c_gr (c s) = false /\ c_delE (c s) = d) ->
  (forall s f e, t0 <= s <= t1 -> (f < 3)%nat -> (e < ne)%nat -> re (trace n (mat_of (proj s r f e))) = 1 /\ (osc = false -> proj s r f e = proj s r f 0%nat)) ->
  (forall s f e2, t0 <= s <= t1 -> (f < 3)%nat -> (1 <= e2 < ne)%nat ->
     rsum 1 e2 (fun e => d (e - 1)%nat * rsum 0 (length (c_dens (c s))) (fun g => fr (c s) g * t_dNC tb g r f e2 e)) <= 1) ->
  (forall s e r, t0 <= s <= t1 -> (e < ne)%nat -> (r < nr)%nat ->
     solves_at n mat_of dot inter osc tb rne (Hm s e r) (proj s) (c s) (old s) (fold s) st s e r) ->
  (forall e r, (e < ne)%nat -> (r < nr)%nat -> psd n (mat_of (st t0 e r))) ->
  forall s, t0 <= s <= t1 ->
  rsum 1 ne (fun e => d (e - 1)%nat * re (trace n (mat_of (st s e r)))) <= rsum 1 ne (fun e => d (e - 1)%nat * re (trace n (mat_of (st t0 e r)))).
Proof.
  intros su ok L Hr Off Tr Row D I s HS.
  assert (Dp : forall e, 0 <= d e). { intro e. destruct (st_conf _ _ _ _ _ _ _ _ _ _ _ ok s HS) as (_ & _ & (_ & _ & _ & W) & _). destruct (Off s HS) as (_ & _ & _ & <-). apply W. }
  set (w := fun e => if Nat.eqb e 0 then 0 else d (e - 1)%nat).
  assert (X : forall u, number n mat_of ne w (st u) r = rsum 1 ne (fun e => d (e - 1)%nat * re (trace n (mat_of (st u e r))))).
  { intro u. unfold number. destruct ne as [|m]; [rewrite !rsum_nil by lia; reflexivity|]. rewrite rsum_first by lia. cbn [w Nat.eqb]. rewrite Rmult_0_l, Rplus_0_l.
    apply rsum_ext. intros e He. unfold w. destruct (Nat.eqb_spec e 0); [lia|reflexivity]. }
  rewrite <- !X. apply (c91_number n mat_of dot su inter osc tb rne ne nr t0 t1 Hm proj c ok w old fold st r L Hr); try assumption.
  - intro e. unfold w. destruct (Nat.eqb e 0); [lra|apply Dp].
  - intros u U. destruct (Off u U) as (A & B & C & _). auto.
  - intros u f e2 U Hf He2. destruct (Off u U) as (_ & _ & _ & ->). unfold w at 2. destruct (Nat.eqb_spec e2 0) as [->|N]; [rewrite rsum_nil by lia; lra|].
    rewrite rsum_first by lia. cbn [w Nat.eqb]. rewrite Rmult_0_l, Rplus_0_l.
    rewrite (rsum_ext 1 e2 _ (fun e => d (e - 1)%nat * rsum 0 (length (c_dens (c u))) (fun g => fr (c u) g * t_dNC tb g r f e2 e))).
    + pose proof (Row u f e2 U Hf ltac:(lia)) as Z. pose proof (Dp (e2 - 1)%nat). nra.
    + intros e He. unfold w. destruct (Nat.eqb_spec e 0); [lia|reflexivity].
Qed.

(** *** Set_initial_state with contents that are not negative gives such states *)
Lemma frame_projector n V P k : unitary n V -> frame n V P -> (k < n)%nat -> projector n (P k) /\ trace n (P k) = c1.
Proof.
  intros U F K. split; [split|].
  - eapply meq_trans; [apply dagger_meq, F, K|]. eapply meq_trans; [|apply meq_sym, F, K]. intros a b _ _. unfold dagger, outer. apply Ceq; cbn; ring.
  - pose proof (frame_prod n V P k k U F K K) as X. rewrite Nat.eqb_refl in X. exact X.
  - rewrite (trace_meq n _ _ (F k K)). pose proof (col_dot n V k k U K K) as X. unfold delta in X. rewrite Nat.eqb_refl in X. rewrite <- X.
    unfold trace, outer. apply csum_ext. intros. apply Ceq; cbn; ring.
Qed.
Theorem c91_start n b P v : (forall j, (j < n)%nat -> 0 <= v j /\ projector n (P j)) ->
  psd n (ini_state n b P v) /\ hermitian n (ini_state n b P v).
Proof.
  intro H. unfold ini_state.
  assert (Q : forall m, (m <= n)%nat -> psd n (msum m (fun j => mscale (v j) (match b with BFlavor => P j | _ => b0_proj j end))) /\
    hermitian n (msum m (fun j => mscale (v j) (match b with BFlavor => P j | _ => b0_proj j end)))).
  { assert (Pr : forall j, (j < n)%nat -> projector n (match b with BFlavor => P j | _ => b0_proj j end)).
    { intros j J. destruct b; try (apply (frame_projector n mid b0_proj j (unitary_id n) (frame_b0 n) J)). apply H, J. }
    induction m as [|m IH]; intro L.
    - split; [apply (psd_meq n mzero); [intros i j _ _; reflexivity|apply psd_zero]|apply (herm_meq n mzero); [intros i j _ _; reflexivity|apply herm_zero]].
    - destruct IH as [A B]; [lia|]. destruct (H m ltac:(lia)) as [V _]. cbn [msum]. split.
      + apply psd_plus; [exact A|]. apply psd_scale; [exact V|apply psd_projector, Pr; lia].
      + apply herm_plus; [exact B|]. apply herm_scale. apply Pr. lia. }
  apply Q. lia.
Qed.

(** *** The flavour projectors of the library, at every clock: projectors on one flavour each *)
Theorem c91_projectors n th dl order nt r H t t0 k : pairs_ok n order -> (k < n)%nat ->
  projector n (evolved H t t0 (b1_proj n th dl order nt r) k) /\ trace n (evolved H t t0 (b1_proj n th dl order nt r) k) = c1.
Proof.
  intros O K. apply (frame_projector n (turned H (t - t0) (mixing n th (fixed_phases nt r dl) order)) (evolved H t t0 (b1_proj n th dl order nt r)) k); [|apply frame_evolve, frame_b1|exact K].
  apply turned_unitary, mixing_unitary, O.
Qed.

(** ** A case: two nodes, the upper feeds the lower *)
Definition two_c (s : R) : iconf := MkC Nu 1 2 3 false false false [1] [1] (1 / 2) (fun _ => 1) (fun _ _ _ => 0).
Definition two_st (a b s : R) (e r : nat) : vec := fun _ => (if Nat.eqb e 0 then a + b * s else b) * exp (- (2 * s)).
Lemma diag_psd v : (forall k, (k < 3)%nat -> 0 <= v k) -> psd 3 (diag v).
Proof.
  intros V D. unfold trace, mmult, dagger, diag. cbn.
  pose proof (V 0%nat ltac:(lia)) as V0. pose proof (V 1%nat ltac:(lia)) as V1. pose proof (V 2%nat ltac:(lia)) as V2.
  set (a := v 0%nat) in *. set (b := v 1%nat) in *. set (d := v 2%nat) in *. clearbody a b d.
  assert (Q : forall x z, 0 <= x -> 0 <= x * (re z * re z + im z * im z)) by (intros x z X; apply Rmult_le_pos; [exact X|nra]).
  pose proof (Q a (D 0%nat 0%nat) V0). pose proof (Q a (D 0%nat 1%nat) V0). pose proof (Q a (D 0%nat 2%nat) V0).
  pose proof (Q b (D 1%nat 0%nat) V1). pose proof (Q b (D 1%nat 1%nat) V1). pose proof (Q b (D 1%nat 2%nat) V1).
  pose proof (Q d (D 2%nat 0%nat) V2). pose proof (Q d (D 2%nat 1%nat) V2). pose proof (Q d (D 2%nat 2%nat) V2). lra.
Qed.
Lemma two_setup t0 t1 : setup 3 diag ex_t 4 2 1 t0 t1 (fun _ _ _ => mzero) (fun _ => ex_proj) two_c.
Proof.
  destruct (one_setup t0 t1) as [A _ _ _ _]. constructor.
  - exact A.
  - lia.
  - intros s _. unfold two_c. cbn. split; [unfold shaped; cbn; repeat split; congruence || lia|]. split; [discriminate|].
    split; [|split; reflexivity]. unfold nonneg_conf. cbn [c_dens c_frac c_ye c_delE]. repeat split; try lra; intro g; try lra; destruct g as [|[|g]]; cbn; lra.
  - intros s r f e _ _ Hf _. split.
    + intros i j Hi Hj. unfold dagger, diag, ex_proj. rewrite (Nat.eqb_sym j i). destruct (Nat.eqb_spec i j) as [->|]; apply Ceq; cbn; ring.
    + intros i j Hi Hj. unfold mmult, diag, ex_proj.
      destruct f as [|[|[|f]]]; [| | |lia]; (destruct i as [|[|[|i]]]; [| | |lia]); (destruct j as [|[|[|j]]]; [| | |lia]); apply Ceq; cbn; ring.
  - intros s r e _ _ _ i j _ _. apply Ceq; cbn; ring.
Qed.
Lemma two_solves a b s old fold e : (e < 2)%nat -> solves_at 3 diag ex_dot true true ex_t 4 mzero ex_proj (two_c s) old fold (two_st a b) s e 0.
Proof.
  intro He.
  assert (Hs : shaped (two_c s)) by (unfold shaped; cbn; repeat split; congruence || lia).
  set (in_ := if Nat.eqb e 0 then b * exp (- (2 * s)) else 0).
  assert (A : forall k, (k < 3)%nat -> absorption true ex_t ex_proj (two_c s) old e 0 k = 1).
  { intros k K. unfold absorption. rewrite c65_absorption by (exact Hs || discriminate || (cbn; lia)).
    unfold rsum, ex_proj. destruct k as [|[|[|k]]]; [| | |lia]; cbn; lra. }
  assert (B : forall k, (k < 3)%nat -> regeneration ex_dot true true ex_t 4 ex_proj (two_st a b s) (two_c s) old fold e 0 k = in_).
  { intros k K. rewrite regeneration_eq by (exact Hs || (cbn; lia)). cbn [two_c c_src].
    assert (L1 : forall r f e, s_NC (update_lengths (two_c s) ex_t old) r f e = 1).
    { intros. rewrite s_NC_eq by discriminate. unfold len_sum, rsum. cbn. lra. }
    unfold factor, nc_source, rsum, in_. destruct e as [|[|e]]; [| |lia]; cbn [two_c c_tau c_gr c_ne c_dens c_delE length Nat.sub seq map fold_right andb Nat.eqb];
      rewrite ?L1; unfold fr, flux_of, fluxe, ex_dot, ex_proj, two_st; cbn; destruct k as [|[|[|k]]]; [| | |lia| | | |lia]; cbn; ring. }
  intros i j Hi Hj.
  set (v := two_st a b s e 0).
  set (d := if Nat.eqb i j then - 2 * v i + in_ else 0).
  assert (E : rhs 3 mzero (diag (absorption true ex_t ex_proj (two_c s) old e 0))
    (diag (regeneration ex_dot true true ex_t 4 ex_proj (two_st a b s) (two_c s) old fold e 0)) (diag v) i j = rtc d).
  { unfold d, rhs, coherent, anti, mplus, mscale.
    assert (M3 : diag (regeneration ex_dot true true ex_t 4 ex_proj (two_st a b s) (two_c s) old fold e 0) i j = if Nat.eqb i j then rtc in_ else c0) by (unfold diag; rewrite (B i Hi); reflexivity).
    rewrite M3.
    assert (M1 : mmult 3 (diag (absorption true ex_t ex_proj (two_c s) old e 0)) (diag v) i j = diag v i j).
    { unfold mmult. rewrite (csum_single 3 i) by (assumption || (intros q _ N; unfold diag; rewrite (proj2 (Nat.eqb_neq i q)) by congruence; apply Ceq; cbn; ring)).
      unfold diag at 1. rewrite Nat.eqb_refl, (A i Hi). apply Ceq; cbn; ring. }
    assert (M2 : mmult 3 (diag v) (diag (absorption true ex_t ex_proj (two_c s) old e 0)) i j = diag v i j).
    { unfold mmult. rewrite (csum_single 3 j) by (assumption || (intros q _ N; unfold diag at 2; rewrite (proj2 (Nat.eqb_neq q j)) by congruence; apply Ceq; cbn; ring)).
      unfold diag at 2. rewrite Nat.eqb_refl, (A j Hj). apply Ceq; cbn; ring. }
    rewrite M1, M2. unfold diag.
    replace (mmult 3 mzero _ i j) with c0 by (symmetry; apply csum_zero; intros; apply Ceq; cbn; ring).
    replace (mmult 3 _ mzero i j) with c0 by (symmetry; apply csum_zero; intros; apply Ceq; cbn; ring).
    destruct (Nat.eqb i j); apply Ceq; cbn; lra. }
  assert (X : derivable_pt_lim (fun u => exp (- (2 * u))) s (exp (- (2 * s)) * (-2))).
  { apply (derivable_pt_lim_comp (fun u => - (2 * u)) exp).
    - pose proof (derivable_pt_lim_opp _ _ _ (derivable_pt_lim_scal id 2 s 1 (derivable_pt_lim_id s))) as D. rewrite Rmult_1_r in D. exact D.
    - apply derivable_pt_lim_exp. }
  fold v. rewrite E. unfold d, diag. destruct (Nat.eqb i j); cbn; split; try apply (derivable_pt_lim_const 0).
  unfold v, in_, two_st. destruct (Nat.eqb e 0).
  - replace (-2 * ((a + b * s) * exp (- (2 * s))) + b * exp (- (2 * s))) with ((0 + b) * exp (- (2 * s)) + (a + b * s) * (exp (- (2 * s)) * (-2))) by ring.
    apply (derivable_pt_lim_mult (fun u => a + b * u) (fun u => exp (- (2 * u)))); [|exact X].
    apply (derivable_pt_lim_plus (fun _ => a) (fun u => b * u)); [apply derivable_pt_lim_const|].
    pose proof (derivable_pt_lim_scal id b s 1 (derivable_pt_lim_id s)) as D. rewrite Rmult_1_r in D. exact D.
  - replace (-2 * (b * exp (- (2 * s))) + 0) with (b * (exp (- (2 * s)) * (-2))) by ring. apply (derivable_pt_lim_scal (fun u => exp (- (2 * u)))). exact X.
Qed.
Example c91_case : setup 3 diag ex_t 4 2 1 0 1 (fun _ _ _ => mzero) (fun _ => ex_proj) two_c /\
  good_sources 3 diag 2 1 0 1 (fun _ => ex_proj) two_c /\
  (forall s e r old fold, (e < 2)%nat -> (r < 1)%nat -> solves_at 3 diag ex_dot true true ex_t 4 mzero ex_proj (two_c s) old fold (two_st 0 1) s e r) /\
  (forall e, psd 3 (diag (two_st 0 1 0 e 0))) /\ projector 3 (diag (ex_proj 0 1 0)) /\
  two_st 0 1 0 0 0 1%nat = 0 /\ 0 < two_st 0 1 1 0 0 1%nat /\
  (forall f e2, (e2 < 2)%nat -> rsum 0 e2 (fun e => 1 * rsum 0 1 (fun g => fr (two_c 0) g * t_dNC ex_t g 0 f e2 e)) * c_delE (two_c 0) (e2 - 1) <= 1).
Proof.
  split; [apply two_setup|]. split; [intros s r f e _ Sr; discriminate|].
  split; [intros s e r old fold He Hr; replace r with 0%nat by lia; apply two_solves, He|].
  split.
  { intro e. apply diag_psd. intros k _. unfold two_st. replace (- (2 * 0)) with 0 by ring. rewrite exp_0. destruct (Nat.eqb e 0); lra. }
  split; [apply (st_proj _ _ _ _ _ _ _ _ _ _ _ (two_setup 0 1) 0); lra || lia|].
  split; [unfold two_st; cbn; ring|].
  split; [unfold two_st; cbn; pose proof (exp_pos (- (2 * 1))); lra|].
  intros f [|[|e2]] He; [| |lia]; unfold rsum, fr; cbn; lra.
Qed.

Print Assumptions c91_positive.
Print Assumptions c91_contents.
Print Assumptions c91_hermitian.
Print Assumptions c91_taus.
Print Assumptions c91_superposition.
Print Assumptions c91_monotone.
Print Assumptions c91_number.
Print Assumptions c91_bins.
Print Assumptions c91_start.
Print Assumptions c91_projectors.
