(** C92: transition probabilities in matter. *)
From Coq Require Import Reals List Arith Bool Lia Lra.
From Verif Require Import CMatrix FlavorModel FlavorProofs FlavorProps FlavorEqn FlavorEqnProps AvgProofs SuperProofs PosProofs PosProps TransProofs.
Import ListNotations.
Local Open Scope R_scope.

(** An object with one energy node of one type, and the potentials it meets at each
    clock; the sign of the potentials belongs to the type (C39). *)
Record world := World {
  w_n : nat; w_th : nat -> nat -> R; w_dl : nat -> nat -> R; w_order : list (nat * nat); w_nt : nutype; w_r : nat;
  w_osc : bool; w_ediff : nat -> R; w_E : R; w_cc : R -> R; w_nc : R -> R }.
Definition w_P (w : world) : nat -> mat := b1_proj (w_n w) (w_th w) (w_dl w) (w_order w) (w_nt w) (w_r w).
Definition w_H (w : world) : mat := h0 (w_n w) (w_osc w) (w_ediff w) (w_E w).
Definition w_ok (w : world) : Prop := (3 <= w_n w)%nat /\ pairs_ok (w_n w) (w_order w).

(** projectors in use at clock [s] *)
Definition w_Pt (w : world) (b : basis) (t0 s : R) : nat -> mat :=
  match b with BMass => w_P w | _ => evolved (w_H w) s t0 (w_P w) end.

(** [rho] solves the equation from [t0] to [t1], no interactions or sources *)
Definition crossing (w : world) (b : basis) (t0 t1 : R) (rho : R -> mat) : Prop := forall s, t0 <= s <= t1 ->
  mderiv (w_n w) rho s (rhs (w_n w) (hi b (w_H w) (w_cc w s) (w_nc w s) (w_Pt w b t0 s))
    (gamma_rho false (fun _ => 0) (w_Pt w b t0 s)) (interactions_rho (w_n w) false false (fun _ => 0) (fun _ => 0) (w_Pt w b t0 s)) (rho s)).

(** set the fluxes [v], evolve, read the content of flavour [k] *)
Definition reading (w : world) (b : basis) (t0 t1 : R) (v : nat -> R) (k : nat) (p : R) : Prop := exists rho,
  crossing w b t0 t1 rho /\ meq (w_n w) (rho t0) (ini_state (w_n w) BFlavor (w_P w) v) /\
  p = eval_flavor (w_n w) b (w_H w) t1 t0 (w_P w) (rho t1) k.

(** the probability to go from flavour [j] to flavour [k] *)
Definition transition (w : world) (b : basis) (t0 t1 : R) (j k : nat) (p : R) : Prop := reading w b t0 t1 (unit_of j) k p.

(** ** All in the mass basis *)
Definition pot (cc nc : R) (P : nat -> mat) : mat :=
  mplus (mplus (mscale (cc + nc) (P 0%nat)) (mscale nc (P 1%nat))) (mscale nc (P 2%nat)).
Definition full (w : world) (s : R) : mat := mplus (pot (w_cc w s) (w_nc w s) (w_P w)) (w_H w).

Lemma crossing_mass w t0 t1 rho : crossing w BMass t0 t1 rho <->
  forall s, t0 <= s <= t1 -> mderiv (w_n w) rho s (coherent (w_n w) (full w s) (rho s)).
Proof.
  split; intros C s S; specialize (C s S).
  - eapply mderiv_meq; [|exact C]. apply rhs_zero.
  - eapply mderiv_meq; [|exact C]. apply meq_sym, rhs_zero.
Qed.
Lemma evolve_pot n H t cc nc P : meq n (evolve H t (pot cc nc P)) (pot cc nc (fun k => evolve H t (P k))).
Proof. intros i j _ _. unfold evolve, pot, mplus, mscale. ring. Qed.
Lemma mass_diag w : diag_real (w_n w) (w_H w).
Proof. apply h0_diag_real. Qed.

Lemma crossing_back w b t0 t1 rho : crossing w b t0 t1 rho -> b <> BMass ->
  crossing w BMass t0 t1 (fun s => evolve (w_H w) (- (s - t0)) (rho s)).
Proof.
  intros C N. apply crossing_mass. intros s S. apply back_to_mass; [apply mass_diag|].
  specialize (C s S). eapply mderiv_meq; [|exact C]. eapply meq_trans; [apply rhs_zero|].
  apply coherent_meq; [|apply meq_refl]. apply meq_sym. destruct b; [|contradiction|]; apply evolve_pot.
Qed.

Lemma reading_mass w b t0 t1 v k p : reading w b t0 t1 v k p -> reading w BMass t0 t1 v k p.
Proof.
  intros (rho & C & I & ->). destruct b.
  2:{ exists rho. split; [exact C|]. split; [exact I|reflexivity]. }
  all: exists (fun s => evolve (w_H w) (- (s - t0)) (rho s)); split; [eapply crossing_back; [exact C|discriminate]|]; split;
    [eapply meq_trans; [|exact I]; intros i j _ _; unfold evolve; replace ((re (w_H w i i) - re (w_H w j j)) * - (t0 - t0)) with 0 by ring; rewrite cexp_0; ring|];
    cbn [eval_flavor]; unfold expect;
    rewrite <- (evolve_shift (w_n w) (w_H w) (- (t1 - t0)) (evolve (w_H w) (t1 - t0) (w_P w k)) (rho t1)); f_equal; apply trace_meq, mmult_meq; [|apply meq_refl];
    intros i j _ _; unfold evolve;
    replace (cexp ((re (w_H w i i) - re (w_H w j j)) * - (t1 - t0)) * (cexp ((re (w_H w i i) - re (w_H w j j)) * (t1 - t0)) * w_P w k i j))%C
      with ((cexp ((re (w_H w i i) - re (w_H w j j)) * - (t1 - t0)) * cexp ((re (w_H w i i) - re (w_H w j j)) * (t1 - t0))) * w_P w k i j)%C by ring;
    rewrite cexp_plus; replace ((re (w_H w i i) - re (w_H w j j)) * - (t1 - t0) + (re (w_H w i i) - re (w_H w j j)) * (t1 - t0)) with 0 by ring; rewrite cexp_0; ring.
Qed.

Lemma w_unitary w : w_ok w -> unitary (w_n w) (mixing (w_n w) (w_th w) (fixed_phases (w_nt w) (w_r w) (w_dl w)) (w_order w)).
Proof. intros [_ O]. apply mixing_unitary, O. Qed.
Lemma w_frame w : frame (w_n w) (mixing (w_n w) (w_th w) (fixed_phases (w_nt w) (w_r w) (w_dl w)) (w_order w)) (w_P w).
Proof. apply frame_b1. Qed.
Lemma w_projector w k : w_ok w -> (k < w_n w)%nat -> projector (w_n w) (w_P w k) /\ trace (w_n w) (w_P w k) = c1.
Proof. intros O K. apply (frame_projector _ _ (w_P w) k (w_unitary w O) (w_frame w) K). Qed.
Lemma full_hermitian w s : w_ok w -> hermitian (w_n w) (full w s).
Proof. intros [L O]. exact (hi_hermitian (w_n w) _ (w_P w) BMass (w_H w) (w_cc w s) (w_nc w s) L (w_frame w) (mass_diag w)). Qed.

Lemma unit_start w j : (j < w_n w)%nat -> meq (w_n w) (ini_state (w_n w) BFlavor (w_P w) (unit_of j)) (w_P w j).
Proof.
  intros J a b _ _. unfold ini_state. rewrite msum_at. rewrite (csum_single _ j _ J).
  - unfold mscale, unit_of. rewrite Nat.eqb_refl. apply Ceq; cbn; ring.
  - intros i _ N. unfold mscale, unit_of. rewrite (proj2 (Nat.eqb_neq i j) N). apply Ceq; cbn; ring.
Qed.

(** ** C92 *)

(** What is read is determined by the start and the medium; both bases show the same. *)
Theorem c92_determined w b b' t0 t1 v k p p' : w_ok w -> t0 <= t1 -> reading w b t0 t1 v k p -> reading w b' t0 t1 v k p' -> p = p'.
Proof.
  intros O L R1 R2. destruct (reading_mass _ _ _ _ _ _ _ R1) as (r1 & C1 & I1 & ->).
  destruct (reading_mass _ _ _ _ _ _ _ R2) as (r2 & C2 & I2 & ->). cbn [eval_flavor]. apply expect_meq; [apply meq_refl|].
  apply (same_solution (w_n w) r1 r2 (full w) (fun _ => mzero) (fun _ => mzero) (fun _ => mzero) t0 t1 L); [| |lra].
  - intros s S. split; [apply full_hermitian, O|]. split; [apply psd_zero|]. split; [apply meq_refl|].
    split; [exact (C1 s S)|exact (C2 s S)].
  - eapply meq_trans; [exact I1|apply meq_sym, I2].
Qed.

(** The fluxes of the flavours do not interfere: what is read is the sum over what was set,
    each times the probability of its transition. *)
Theorem c92_fluxes_add w b t0 t1 v k p (q : nat -> R) : w_ok w -> t0 <= t1 ->
  reading w b t0 t1 v k p -> (forall j, (j < w_n w)%nat -> transition w b t0 t1 j k (q j)) ->
  p = rsum (w_n w) (fun j => v j * q j).
Proof.
  intros O L Rp Rq. destruct (reading_mass _ _ _ _ _ _ _ Rp) as (r1 & C1 & I1 & ->).
  assert (Rq' : exists rs : nat -> R -> mat, forall j, (j < w_n w)%nat -> crossing w BMass t0 t1 (rs j) /\ meq (w_n w) (rs j t0) (w_P w j) /\
     q j = expect (w_n w) (w_P w k) (rs j t1)).
  { clear - Rq. assert (Q : forall m, (m <= w_n w)%nat -> exists rs : nat -> R -> mat, forall j, (j < m)%nat -> crossing w BMass t0 t1 (rs j) /\ meq (w_n w) (rs j t0) (w_P w j) /\
       q j = expect (w_n w) (w_P w k) (rs j t1)).
    { induction m as [|m IH]; intro M; [exists (fun _ _ => mzero); intros; lia|]. destruct IH as [rs H]; [lia|].
      destruct (reading_mass _ _ _ _ _ _ _ (Rq m M)) as (r & C & I & E).
      exists (fun j => if Nat.eqb j m then r else rs j). intros j J. destruct (Nat.eqb_spec j m) as [->|N].
      - split; [exact C|]. split; [eapply meq_trans; [exact I|apply unit_start, M]|exact E].
      - apply H. lia. }
    apply Q. lia. }
  destruct Rq' as [rs Hrs]. cbn [eval_flavor].
  assert (S : meq (w_n w) (r1 t1) (msum (w_n w) (fun j => mscale (v j) (rs j t1)))).
  { apply (same_solution (w_n w) r1 (fun s => msum (w_n w) (fun j => mscale (v j) (rs j s))) (full w) (fun _ => mzero) (fun _ => mzero) (fun _ => mzero) t0 t1 L); [| |lra].
    - intros s S. split; [apply full_hermitian, O|]. split; [apply psd_zero|]. split; [apply meq_refl|]. split; [exact (C1 s S)|].
      eapply mderiv_meq; [apply meq_sym; eapply meq_trans; [apply rhs_zero|apply coherent_msum]|].
      apply mderiv_msum. intros j J. destruct (Hrs j J) as [C _]. exact (proj1 (crossing_mass w t0 t1 (rs j)) C s S).
    - eapply meq_trans; [exact I1|]. apply msum_meq. intros j J. apply mscale_meq, meq_sym. apply Hrs, J. }
  rewrite (expect_meq _ _ _ _ _ (meq_refl _ (w_P w k)) S). unfold expect.
  rewrite (trace_meq _ _ _ (mmult_msum_r _ _ _ _)), trace_msum, csum_re. apply rsum_ext. intros j J.
  rewrite (trace_meq _ _ _ (mmult_scale_r _ _ _ _)), trace_scale. destruct (Hrs j J) as (_ & _ & ->). unfold expect. cbn. ring.
Qed.

(** From one flavour to all: one. *)
Theorem c92_rows w b t0 t1 j (p : nat -> R) : w_ok w -> t0 <= t1 -> (j < w_n w)%nat ->
  (forall k, (k < w_n w)%nat -> transition w b t0 t1 j k (p k)) -> rsum (w_n w) p = 1.
Proof.
  intros O L J T. assert (N0 : (0 < w_n w)%nat) by lia.
  destruct (reading_mass _ _ _ _ _ _ _ (T 0%nat N0)) as (rho & C & I & E0).
  assert (Pk : forall k, (k < w_n w)%nat -> p k = expect (w_n w) (w_P w k) (rho t1)).
  { intros k K. apply (c92_determined w b BMass t0 t1 (unit_of j) k (p k) _ O L (T k K)).
    exists rho. split; [exact C|]. split; [exact I|reflexivity]. }
  rewrite (rsum_ext _ _ _ Pk), (frame_total _ _ (w_P w) (rho t1) (w_unitary w O) (w_frame w)).
  rewrite <- (trace_meq _ _ _ (mmult_id_l _ (rho t1))).
  rewrite (pair_still (w_n w) (full w) (fun _ => mid) rho t0 t1 L).
  - rewrite (trace_meq _ _ _ (mmult_id_l _ _)), (trace_meq _ _ _ I), (trace_meq _ _ _ (unit_start w j J)).
    rewrite (proj2 (w_projector w j O J)). reflexivity.
  - intros s S. split; [eapply mderiv_meq; [apply meq_sym, coherent_of_id|apply mderiv_const]|].
    exact (proj1 (crossing_mass w t0 t1 rho) C s S).
Qed.

(** Neither negative nor more than one. *)
Theorem c92_bounds w b t0 t1 j k p : w_ok w -> t0 <= t1 -> (j < w_n w)%nat -> (k < w_n w)%nat ->
  transition w b t0 t1 j k p -> 0 <= p <= 1.
Proof.
  intros O L J K T. destruct (reading_mass _ _ _ _ _ _ _ T) as (rho & C & I & ->). cbn [eval_flavor].
  assert (Pos : forall m, (m < w_n w)%nat -> 0 <= expect (w_n w) (w_P w m) (rho t1)).
  { intros m M. apply psd_content; [apply w_projector; assumption|].
    apply (stays_psd (w_n w) rho (full w) (fun _ => mzero) (fun _ => mzero) t0 t1).
    - lra.
    - intros s S. split; [apply full_hermitian, O|]. split; [apply herm_zero|]. split; [apply psd_zero|]. split; [apply psd_zero|]. exact (C s S).
    - apply (psd_meq _ (w_P w j)); [apply meq_sym; eapply meq_trans; [exact I|apply unit_start, J]|].
      apply psd_projector, w_projector; assumption.
    - lra. }
  split; [apply Pos, K|].
  rewrite <- (c92_rows w BMass t0 t1 j (fun m => expect (w_n w) (w_P w m) (rho t1)) O L J).
  - apply (rsum_term (w_n w) (fun m => expect (w_n w) (w_P w m) (rho t1)) k K Pos).
  - intros m M. exists rho. split; [exact C|]. split; [exact I|reflexivity].
Qed.

(** From all flavours to one: one, so equal fluxes of all flavours stay equal. *)
Theorem c92_columns w b t0 t1 k (p : nat -> R) : w_ok w -> t0 <= t1 -> (k < w_n w)%nat ->
  (forall j, (j < w_n w)%nat -> transition w b t0 t1 j k (p j)) -> rsum (w_n w) p = 1.
Proof.
  intros O L K T.
  rewrite (rsum_ext _ _ (fun j => 1 * p j)) by (intros; ring).
  symmetry. apply (c92_fluxes_add w BMass t0 t1 (fun _ => 1) k 1 p O L).
  - exists (fun _ => mid). split; [|split].
    + apply crossing_mass. intros s S. eapply mderiv_meq; [apply meq_sym, coherent_of_id|apply mderiv_const].
    + apply meq_sym. unfold ini_state. eapply meq_trans; [|apply (frame_sum _ _ (w_P w) (w_unitary w O) (w_frame w))].
      apply msum_meq. intros i _ a b0 _ _. unfold mscale. apply Ceq; cbn; ring.
    + cbn [eval_flavor]. unfold expect. rewrite (trace_meq _ _ _ (mmult_id_r _ _)), (proj2 (w_projector w k O K)). reflexivity.
  - intros j J. apply reading_mass with (b := b), T, J.
Qed.
Theorem c92_equal_fluxes w b t0 t1 k x p : w_ok w -> t0 <= t1 -> (k < w_n w)%nat ->
  reading w b t0 t1 (fun _ => x) k p -> p = x.
Proof.
  intros O L K T. apply (c92_determined w b BMass t0 t1 (fun _ => x) k p x O L T). exists (fun _ => mscale x mid). split; [|split].
  - apply crossing_mass. intros s S. eapply mderiv_meq; [|apply mderiv_const]. apply meq_sym.
    eapply meq_trans; [|apply (coherent_of_id (w_n w) (mscale x (full w s)))].
    intros i j Hi Hj. unfold coherent.
    rewrite (mmult_scale_l _ x mid (full w s) i j Hi Hj), (mmult_scale_r _ x mid (full w s) i j Hi Hj), (mmult_scale_l _ x (full w s) mid i j Hi Hj), (mmult_scale_r _ x (full w s) mid i j Hi Hj). reflexivity.
  - apply meq_sym. unfold ini_state. eapply meq_trans; [|apply mscale_meq, (frame_sum _ _ (w_P w) (w_unitary w O) (w_frame w))].
    intros i j Hi Hj. unfold mscale at 2. rewrite !msum_at, <- csum_mult_l. reflexivity.
  - cbn [eval_flavor]. unfold expect. rewrite (trace_meq _ _ _ (mmult_scale_r _ x _ _)), trace_scale, (trace_meq _ _ _ (mmult_id_r _ _)), (proj2 (w_projector w k O K)). cbn. ring.
Qed.

(** ** Phases changed in sign: the conjugate projectors *)
Definition neg_phases (w : world) : world :=
  World (w_n w) (w_th w) (fun i j => - w_dl w i j) (w_order w) (w_nt w) (w_r w) (w_osc w) (w_ediff w) (w_E w) (w_cc w) (w_nc w).
Lemma phases_conj n th dl order nt r k : (k < n)%nat ->
  meq n (b1_proj n th (fun i j => - dl i j) order nt r k) (transp (b1_proj n th dl order nt r k)).
Proof.
  intros K. set (V := mixing n th (fixed_phases nt r dl) order).
  assert (M : meq n (mixing n th (fixed_phases nt r (fun i j => - dl i j)) order) (conjm V)).
  { unfold V. destruct nt; cbn [fixed_phases]; [exact (FlavorEqnProps.mixing_conj n th dl order)|exact (FlavorEqnProps.mixing_conj n th (fun i j => - dl i j) order)|].
    destruct (Nat.eqb r 1); [exact (FlavorEqnProps.mixing_conj n th (fun i j => - dl i j) order)|exact (FlavorEqnProps.mixing_conj n th dl order)]. }
  intros a b Ha Hb. unfold transp. unfold b1_proj. rewrite (rotated n _ k K a b Ha Hb). fold V. rewrite (rotated n V k K b a Hb Ha). unfold outer.
  rewrite (M a k Ha K), (M b k Hb K). unfold conjm. rewrite conj_conj. ring.
Qed.
Lemma outer_swap n V P k : frame n V P -> (k < n)%nat -> meq n (transp (P k)) (conjm (P k)).
Proof. intros F K a b Ha Hb. unfold transp, conjm. rewrite (F k K b a Hb Ha), (F k K a b Ha Hb). unfold outer. rewrite conj_mult, conj_conj. ring. Qed.
Lemma diag_transp n H : diag_real n H -> meq n (transp H) H.
Proof. intros D a b Ha Hb. unfold transp. rewrite (D b a Hb Ha), (D a b Ha Hb), Nat.eqb_sym. destruct (Nat.eqb_spec a b) as [->|]; reflexivity. Qed.
Lemma diag_conjm n H : diag_real n H -> meq n (conjm H) H.
Proof. intros D a b Ha Hb. unfold conjm. rewrite (D a b Ha Hb). destruct (Nat.eqb a b); [apply conj_rtc|apply conj_0]. Qed.

(** the same medium from the other end *)
Definition from_behind (t0 t1 : R) (w : world) : world :=
  World (w_n w) (w_th w) (w_dl w) (w_order w) (w_nt w) (w_r w) (w_osc w) (w_ediff w) (w_E w) (fun s => w_cc w (t0 + t1 - s)) (fun s => w_nc w (t0 + t1 - s)).

(** Going back through the medium with the phases changed in sign undoes the way there:
    the probabilities from [k] to [j] are those from [j] to [k]. *)
Theorem c92_reversal w b b' t0 t1 j k p p' : w_ok w -> t0 <= t1 -> (j < w_n w)%nat -> (k < w_n w)%nat ->
  transition w b t0 t1 j k p -> transition (from_behind t0 t1 (neg_phases w)) b' t0 t1 k j p' -> p' = p.
Proof.
  intros O L J K T T'. set (w' := from_behind t0 t1 (neg_phases w)) in *.
  destruct (reading_mass _ _ _ _ _ _ _ T) as (sigma & C & I & ->). destruct (reading_mass _ _ _ _ _ _ _ T') as (tau & C' & I' & ->).
  assert (PP : forall m, (m < w_n w)%nat -> meq (w_n w) (w_P w' m) (transp (w_P w m))) by (intros m M; apply phases_conj, M).
  assert (HH : forall s, meq (w_n w) (transp (full w' (t0 + t1 - s))) (full w s)).
  { intros s i l Hi Hl. unfold transp, full, pot, mplus, mscale.
    rewrite (PP 0%nat ltac:(destruct O; lia) l i Hl Hi), (PP 1%nat ltac:(destruct O; lia) l i Hl Hi), (PP 2%nat ltac:(destruct O; lia) l i Hl Hi).
    change (w_H w' l i) with (transp (w_H w) i l). rewrite (diag_transp _ _ (mass_diag w) i l Hi Hl). unfold transp.
    unfold w'. cbn [from_behind neg_phases w_cc w_nc]. replace (t0 + t1 - (t0 + t1 - s)) with s by ring. reflexivity. }
  pose proof (pair_still (w_n w) (full w) (fun s => transp (tau (t0 + t1 - s))) sigma t0 t1 L) as Q. cbv beta in Q.
  replace (t0 + t1 - t1) with t0 in Q by ring. replace (t0 + t1 - t0) with t1 in Q by ring.
  cbn [eval_flavor].
  assert (E1 : expect (w_n w) (w_P w k) (sigma t1) = re (trace (w_n w) (mmult (w_n w) (transp (tau t0)) (sigma t1)))).
  { unfold expect. f_equal. apply trace_meq, mmult_meq; [|apply meq_refl]. intros a c Ha Hc. unfold transp.
    rewrite (I' c a Hc Ha). rewrite (unit_start w' k K c a Hc Ha), (PP k K c a Hc Ha). reflexivity. }
  assert (E2 : expect (w_n w') (w_P w' j) (tau t1) = re (trace (w_n w) (mmult (w_n w) (transp (tau t1)) (sigma t0)))).
  { unfold expect. change (w_n w') with (w_n w). f_equal.
    rewrite (trace_meq _ _ _ (mmult_meq _ _ _ _ _ (meq_refl _ (transp (tau t1))) (meq_trans _ _ _ _ I (unit_start w j J)))).
    rewrite (trace_meq _ _ _ (mmult_meq _ _ _ _ _ (PP j J) (meq_refl _ (tau t1)))).
    unfold trace. apply csum_ext. intros a _. change (tau t1) with (transp (transp (tau t1))). rewrite (mmult_transp (w_n w) (w_P w j) (transp (tau t1)) a a).
    reflexivity. }
  rewrite E1, E2. symmetry. apply Q. intros s S. split.
  - assert (S' : t0 <= t0 + t1 - s <= t1) by lra.
    pose proof (mderiv_reflect _ _ (t0 + t1) s _ (mderiv_transp _ _ _ _ (proj1 (crossing_mass w' t0 t1 tau) C' _ S'))) as M.
    change (w_n w') with (w_n w) in M. eapply mderiv_meq; [|exact M].
    eapply meq_trans; [apply mscale_meq, coherent_transp|].
    intros a c Ha Hc. unfold mscale. rewrite (coherent_meq _ _ _ _ _ (HH s) (meq_refl _ (transp (tau (t0 + t1 - s)))) a c Ha Hc). apply Ceq; cbn; ring.
  - exact (proj1 (crossing_mass w t0 t1 sigma) C s S).
Qed.

Lemma rot_real i j th dl a b : sin dl = 0 -> rot i j th (- dl) a b = rot i j th dl a b.
Proof.
  intro Z. assert (E : cexp (- dl) = cexp dl) by (unfold cexp; rewrite cos_neg, sin_neg, Z; f_equal; ring).
  unfold rot. rewrite Ropp_involutive, E. reflexivity.
Qed.
Lemma mixing_real n th dl order : (forall i j, In (i, j) order -> sin (dl i j) = 0) -> forall a b, (a < n)%nat -> (b < n)%nat ->
  mixing n th (fun i j => - dl i j) order a b = mixing n th dl order a b.
Proof.
  induction order as [|(i, j) l IH]; intros Z a b Ha Hb; cbn [mixing]; [reflexivity|].
  unfold mmult. apply csum_ext. intros k Hk. rewrite IH by (try assumption; intros; apply Z; right; assumption).
  rewrite rot_real by (apply Z; left; reflexivity). reflexivity.
Qed.

(** Without phases (or with phases of half turns) and in a medium that is the same from both
    ends, the way from [j] to [k] is as likely as the way from [k] to [j]. *)
Theorem c92_reciprocity w b b' t0 t1 j k p p' : w_ok w -> t0 <= t1 -> (j < w_n w)%nat -> (k < w_n w)%nat ->
  (forall a c, In (a, c) (w_order w) -> sin (w_dl w a c) = 0) ->
  (forall s, t0 <= s <= t1 -> w_cc w (t0 + t1 - s) = w_cc w s /\ w_nc w (t0 + t1 - s) = w_nc w s) ->
  transition w b t0 t1 j k p -> transition w b' t0 t1 k j p' -> p' = p.
Proof.
  intros O L J K Z Sy T T'. apply (c92_reversal w b BMass t0 t1 j k p p' O L J K T).
  set (w' := from_behind t0 t1 (neg_phases w)).
  assert (PP : forall m, (m < w_n w)%nat -> meq (w_n w) (w_P w' m) (w_P w m)).
  { intros m M a c Ha Hc. unfold w_P, w'. cbn [from_behind neg_phases w_n w_th w_dl w_order w_nt w_r].
    unfold b1_proj. rewrite !rotated by assumption. unfold outer.
    assert (X : forall a, (a < w_n w)%nat -> mixing (w_n w) (w_th w) (fixed_phases (w_nt w) (w_r w) (fun i j => - w_dl w i j)) (w_order w) a m =
      mixing (w_n w) (w_th w) (fixed_phases (w_nt w) (w_r w) (w_dl w)) (w_order w) a m).
    { intros d Hd. destruct (w_nt w); cbn [fixed_phases].
      - apply mixing_real; assumption.
      - apply (mixing_real _ _ (fun i j => - w_dl w i j)); try assumption. intros. rewrite sin_neg, Z by assumption. ring.
      - destruct (Nat.eqb (w_r w) 1); [|apply mixing_real; assumption].
        apply (mixing_real _ _ (fun i j => - w_dl w i j)); try assumption. intros. rewrite sin_neg, Z by assumption. ring. }
    rewrite !X by assumption. reflexivity. }
  destruct (reading_mass _ _ _ _ _ _ _ T') as (tau & C & I & ->). exists tau. split; [|split].
  - apply crossing_mass. intros s S. change (w_n w') with (w_n w). eapply mderiv_meq; [|exact (proj1 (crossing_mass w t0 t1 tau) C s S)].
    apply coherent_meq; [|apply meq_refl]. intros a c Ha Hc. unfold full, pot, mplus, mscale.
    rewrite (PP 0%nat ltac:(destruct O; lia) a c Ha Hc), (PP 1%nat ltac:(destruct O; lia) a c Ha Hc), (PP 2%nat ltac:(destruct O; lia) a c Ha Hc).
    unfold w'. cbn [from_behind neg_phases w_cc w_nc]. destruct (Sy s S) as [-> ->]. reflexivity.
  - eapply meq_trans; [exact I|]. change (w_n w') with (w_n w). eapply meq_trans; [apply unit_start, K|].
    apply meq_sym. eapply meq_trans; [apply (unit_start w'), K|]. apply PP, K.
  - cbn [eval_flavor]. apply expect_meq; [apply meq_sym, PP, J|apply meq_refl].
Qed.

(** Splittings, potentials and phases all of the other sign: the same probabilities.  So an
    antineutrino behaves in matter as a neutrino with the opposite mass ordering. *)
Definition mirrored (w : world) : world :=
  World (w_n w) (w_th w) (fun i j => - w_dl w i j) (w_order w) (w_nt w) (w_r w) (w_osc w) (fun i => - w_ediff w i) (w_E w) (fun s => - w_cc w s) (fun s => - w_nc w s).
Lemma h0_neg n osc ediff E : meq n (h0 n osc (fun i => - ediff i) E) (mscale (-1) (h0 n osc ediff E)).
Proof.
  intros a b Ha Hb. unfold h0. destruct osc; [|unfold mscale, mzero; ring]. unfold dm2.
  assert (X : forall m, msum m (fun i => mscale (- ediff (S i)) (b0_proj (S i))) a b = cmult (mkC (-1) 0) (msum m (fun i => mscale (ediff (S i)) (b0_proj (S i))) a b)).
  { intro m. rewrite !msum_at, <- csum_mult_l. apply csum_ext. intros i _. unfold mscale. apply Ceq; cbn; ring. }
  change (cmult (rtc (5 / 10 / E)) (msum (n - 1) (fun i => mscale (- ediff (S i)) (b0_proj (S i))) a b) =
    cmult (rtc (-1)) (cmult (rtc (5 / 10 / E)) (msum (n - 1) (fun i => mscale (ediff (S i)) (b0_proj (S i))) a b))).
  rewrite X. unfold rtc. ring.
Qed.
Theorem c92_mirror w b b' t0 t1 v k p p' : w_ok w -> t0 <= t1 -> (k < w_n w)%nat ->
  reading w b t0 t1 v k p -> reading (mirrored w) b' t0 t1 v k p' -> p' = p.
Proof.
  intros O L K T T'. symmetry. apply (c92_determined (mirrored w) BMass b' t0 t1 v k p p'); [exact O|exact L| |exact T'].
  destruct (reading_mass _ _ _ _ _ _ _ T) as (rho & C & I & ->). set (w' := mirrored w).
  assert (PP : forall m, (m < w_n w)%nat -> meq (w_n w) (w_P w' m) (conjm (w_P w m))).
  { intros m M. eapply meq_trans; [apply phases_conj, M|]. apply (outer_swap _ _ _ m (w_frame w) M). }
  exists (fun s => conjm (rho s)). split; [|split].
  - apply crossing_mass. intros s S. change (w_n w') with (w_n w).
    eapply mderiv_meq; [|apply mderiv_conjm, (proj1 (crossing_mass w t0 t1 rho) C s S)].
    eapply meq_trans; [apply coherent_conjm|]. apply coherent_meq; [|apply meq_refl].
    intros a c Ha Hc. unfold mscale at 1, conjm, full. unfold mplus at 1 2. rewrite conj_plus.
    change (cconj (w_H w a c)) with (conjm (w_H w) a c). rewrite (diag_conjm _ _ (mass_diag w) a c Ha Hc).
    change (w_H w' a c) with (h0 (w_n w) (w_osc w) (fun i => - w_ediff w i) (w_E w) a c). rewrite (h0_neg _ _ _ _ a c Ha Hc).
    unfold pot, mplus, mscale. rewrite (PP 0%nat ltac:(destruct O; lia) a c Ha Hc), (PP 1%nat ltac:(destruct O; lia) a c Ha Hc), (PP 2%nat ltac:(destruct O; lia) a c Ha Hc).
    unfold w', conjm, w_H. cbn [mirrored w_cc w_nc]. apply Ceq; cbn; ring.
  - intros a c Ha Hc. unfold conjm. rewrite (I a c Ha Hc). unfold ini_state. rewrite !msum_at, csum_conj. apply csum_ext. intros i Hi.
    unfold mscale. rewrite conj_mult, conj_rtc. change (w_n w') with (w_n w) in Hi. rewrite (PP i Hi a c Ha Hc). reflexivity.
  - cbn [eval_flavor]. unfold expect. change (w_n w') with (w_n w).
    rewrite (trace_meq _ _ _ (mmult_meq _ _ _ _ _ (PP k K) (meq_refl _ _))).
    unfold trace. rewrite !csum_re. apply rsum_ext. intros a _. rewrite mmult_conjm. reflexivity.
Qed.

(** Energy and path divided by [x] and potentials [x] times as strong: the same.
    Without matter that is the rule of distance over energy. *)
Definition scaled (x t0 : R) (w : world) : world :=
  World (w_n w) (w_th w) (w_dl w) (w_order w) (w_nt w) (w_r w) (w_osc w) (w_ediff w) (w_E w / x)
    (fun s => x * w_cc w (t0 + (s - t0) * x)) (fun s => x * w_nc w (t0 + (s - t0) * x)).
Lemma h0_scaled n osc ediff E x : E <> 0 -> x <> 0 -> meq n (h0 n osc ediff (E / x)) (mscale x (h0 n osc ediff E)).
Proof.
  intros HE Hx a b _ _. unfold h0. destruct osc; [|unfold mscale, mzero; ring].
  unfold mscale. replace (5 / 10 / (E / x)) with (x * (5 / 10 / E)) by (field; split; assumption). rewrite rtc_mult. ring.
Qed.
Theorem c92_scaling w b b' t0 t1 x v k p p' : w_ok w -> t0 <= t1 -> 0 < x -> w_E w <> 0 ->
  reading w b t0 t1 v k p -> reading (scaled x t0 w) b' t0 (t0 + (t1 - t0) / x) v k p' -> p' = p.
Proof.
  intros O L X HE T T'. symmetry.
  assert (L' : t0 <= t0 + (t1 - t0) / x).
  { assert (0 <= (t1 - t0) / x); [|lra]. apply Rmult_le_pos; [lra|]. left. apply Rinv_0_lt_compat, X. }
  apply (c92_determined (scaled x t0 w) BMass b' t0 _ v k p p' O L'); [|exact T'].
  destruct (reading_mass _ _ _ _ _ _ _ T) as (rho & C & I & ->). set (w' := scaled x t0 w).
  exists (fun s => rho (t0 + (s - t0) * x)). split; [|split].
  - apply crossing_mass. intros s S. change (w_n w') with (w_n w).
    assert (S' : t0 <= t0 + (s - t0) * x <= t1).
    { split; [assert (0 <= (s - t0) * x) by (apply Rmult_le_pos; lra); lra|].
      assert ((s - t0) * x <= (t1 - t0) / x * x) by (apply Rmult_le_compat_r; lra).
      replace ((t1 - t0) / x * x) with (t1 - t0) in H by (field; lra). lra. }
    pose proof (mderiv_rescale _ rho t0 x s _ (proj1 (crossing_mass w t0 t1 rho) C _ S')) as M.
    eapply mderiv_meq; [|exact M]. eapply meq_trans; [apply meq_sym, coherent_scale|]. apply coherent_meq; [|apply meq_refl].
    intros a c Ha Hc. unfold full. unfold mplus at 2. change (w_H w' a c) with (h0 (w_n w) (w_osc w) (w_ediff w) (w_E w / x) a c).
    rewrite (h0_scaled _ _ _ _ x HE ltac:(lra) a c Ha Hc). unfold w', w_H, w_P. unfold pot, mplus, mscale. cbn [scaled w_cc w_nc w_n w_th w_dl w_order w_nt w_r].
    apply Ceq; cbn; ring.
  - replace (t0 + (t0 - t0) * x) with t0 by ring. exact I.
  - cbn [eval_flavor]. replace (t0 + (t0 + (t1 - t0) / x - t0) * x) with t1 by (field; lra). reflexivity.
Qed.

(** With three flavours the potential they share shows nowhere. *)
Definition other_nc (nc : R -> R) (w : world) : world :=
  World (w_n w) (w_th w) (w_dl w) (w_order w) (w_nt w) (w_r w) (w_osc w) (w_ediff w) (w_E w) (w_cc w) nc.
Theorem c92_shared_potential w b b' t0 t1 nc v k p p' : w_ok w -> w_n w = 3%nat -> t0 <= t1 ->
  reading w b t0 t1 v k p -> reading (other_nc nc w) b' t0 t1 v k p' -> p' = p.
Proof.
  intros O N3 L T T'. symmetry. apply (c92_determined (other_nc nc w) BMass b' t0 t1 v k p p' O L); [|exact T'].
  destruct (reading_mass _ _ _ _ _ _ _ T) as (rho & C & I & ->). exists rho. split; [|split; [exact I|reflexivity]].
  apply crossing_mass. intros s S. change (w_n (other_nc nc w)) with (w_n w). eapply mderiv_meq; [|exact (proj1 (crossing_mass w t0 t1 rho) C s S)].
  assert (F : meq (w_n w) (full w s) (mplus (full (other_nc nc w) s) (mscale (w_nc w s - nc s) mid))).
  { intros a c Ha Hc. pose proof (frame_sum _ _ (w_P w) (w_unitary w O) (w_frame w) a c Ha Hc) as Fs. rewrite msum_at, N3 in Fs. cbn [csum] in Fs.
    unfold mplus at 1, mscale at 1. rewrite <- Fs. unfold full, pot, mplus, mscale. change (w_P (other_nc nc w)) with (w_P w). change (w_H (other_nc nc w)) with (w_H w).
    cbn [other_nc w_cc w_nc]. apply Ceq; cbn; ring. }
  eapply meq_trans; [apply coherent_meq; [exact F|apply meq_refl]|]. eapply meq_trans; [apply coherent_plus|].
  intros a c Ha Hc. unfold mplus. rewrite (coherent_id _ _ _ a c Ha Hc). unfold mzero. ring.
Qed.

(** ** A case: two flavours mixed as much as can be, in matter; what is left of the first
    after half a turn is 9/25 of it *)
Definition mw : world := World 3 th_ex (fun _ _ => 0) order_ex Neutrino 0 true (fun i => match i with 1%nat => 8 | _ => 0 end) 1 (fun _ => 3) (fun _ => 0).
Definition mrho (s : R) : mat := fun a b => match a, b with
  | 0%nat, 0%nat => mkC (13 / 50 + 6 / 25 * cos (5 * s)) 0
  | 0%nat, 1%nat => mkC (- (9 / 50) - 8 / 25 * cos (5 * s)) (- (2 / 5) * sin (5 * s))
  | 1%nat, 0%nat => mkC (- (9 / 50) - 8 / 25 * cos (5 * s)) (2 / 5 * sin (5 * s))
  | 1%nat, 1%nat => mkC (37 / 50 - 6 / 25 * cos (5 * s)) 0
  | _, _ => c0 end.
Definition half (sg : R) : mat := fun a b => match a, b with
  | 0%nat, 0%nat | 1%nat, 1%nat => mkC (1 / 2) 0
  | 0%nat, 1%nat | 1%nat, 0%nat => mkC (sg / 2) 0
  | _, _ => c0 end.
Lemma mw_ok : w_ok mw.
Proof. split; [cbn; lia|exact order_ex_ok]. Qed.
Lemma quarter : sin (PI / 4) * sin (PI / 4) = 1 / 2 /\ cos (PI / 4) = sin (PI / 4).
Proof.
  split; [|symmetry; apply sin_cos_PI4].
  rewrite sin_PI4. replace (1 / sqrt 2 * (1 / sqrt 2)) with (/ (sqrt 2 * sqrt 2)) by (field; apply Rgt_not_eq, sqrt_lt_R0; lra).
  rewrite sqrt_sqrt by lra. lra.
Qed.
Lemma mw_V a k : (a < 3)%nat -> (k < 3)%nat -> mixing 3 th_ex (fun _ _ => 0) order_ex a k = match a, k with
  | 0%nat, 0%nat | 1%nat, 1%nat | 0%nat, 1%nat => rtc (sin (PI / 4)) | 1%nat, 0%nat => rtc (- sin (PI / 4)) | 2%nat, 2%nat => c1 | _, _ => c0 end.
Proof.
  intros Ha Hk. rewrite mixing_ex by assumption. destruct quarter as [_ C].
  destruct a as [|[|[|a]]]; [| | |lia]; destruct k as [|[|[|k]]]; try lia; cbn [rot Nat.eqb delta];
    rewrite ?C, ?Ropp_0, ?cexp_0; try reflexivity; apply Ceq; cbn; ring.
Qed.
Lemma mw_P k : (k < 2)%nat -> meq 3 (w_P mw k) (half (if Nat.eqb k 0 then -1 else 1)).
Proof.
  intros Hk a b Ha Hb. rewrite (w_frame mw k ltac:(cbn; lia) a b Ha Hb). unfold outer.
  change (mixing (w_n mw) (w_th mw) (fixed_phases (w_nt mw) (w_r mw) (w_dl mw)) (w_order mw)) with (mixing 3 th_ex (fun _ _ => 0) order_ex).
  rewrite !mw_V by (try assumption; lia). destruct quarter as [S _].
  destruct k as [|[|k]]; [| |lia]; destruct a as [|[|[|a]]]; try lia; destruct b as [|[|[|b]]]; try lia; unfold half; cbn [Nat.eqb];
    apply Ceq; cbn; try ring; set (x := sin (PI / 4)) in *; clearbody x; nra.
Qed.
Lemma mw_H a b : (a < 3)%nat -> (b < 3)%nat -> w_H mw a b = if (Nat.eqb a 1 && Nat.eqb b 1)%bool then rtc 4 else c0.
Proof.
  intros Ha Hb. unfold w_H, mw, h0, dm2. cbn.
  destruct a as [|[|[|a]]]; try lia; destruct b as [|[|[|b]]]; try lia; unfold mscale, mplus, mzero, b0_proj, ket_proj, delta; cbn; apply Ceq; cbn; field.
Qed.
Lemma mw_full s a b : (a < 3)%nat -> (b < 3)%nat -> full mw s a b = match a, b with
  | 0%nat, 0%nat => rtc (3 / 2) | 0%nat, 1%nat | 1%nat, 0%nat => rtc (- (3 / 2)) | 1%nat, 1%nat => rtc (11 / 2) | _, _ => c0 end.
Proof.
  intros Ha Hb. unfold full, pot, mplus, mscale. rewrite (mw_H a b Ha Hb), (mw_P 0 ltac:(lia) a b Ha Hb). generalize (w_P mw 1 a b) (w_P mw 2 a b). intros x1 x2. cbn [w_cc w_nc mw].
  destruct a as [|[|[|a]]]; try lia; destruct b as [|[|[|b]]]; try lia; unfold half; cbn [Nat.eqb andb]; apply Ceq; cbn; field.
Qed.
Lemma mw_crossing t1 : crossing mw BMass 0 t1 mrho.
Proof.
  apply crossing_mass. intros s _. change (w_n mw) with 3%nat.
  assert (Dc : derivable_pt_lim (fun u => cos (5 * u)) s (- sin (5 * s) * 5)).
  { apply (derivable_pt_lim_comp (fun u => 5 * u) cos); [|apply derivable_pt_lim_cos].
    pose proof (derivable_pt_lim_scal id 5 s 1 (derivable_pt_lim_id s)) as X. rewrite Rmult_1_r in X. exact X. }
  assert (Ds : derivable_pt_lim (fun u => sin (5 * u)) s (cos (5 * s) * 5)).
  { apply (derivable_pt_lim_comp (fun u => 5 * u) sin); [|apply derivable_pt_lim_sin].
    pose proof (derivable_pt_lim_scal id 5 s 1 (derivable_pt_lim_id s)) as X. rewrite Rmult_1_r in X. exact X. }
  assert (Lin : forall f a c d, derivable_pt_lim f s d -> derivable_pt_lim (fun u => a + c * f u) s (c * d)).
  { intros f a c d D. replace (c * d) with (0 + c * d) by ring. apply (derivable_pt_lim_plus (fun _ => a) (fun u => c * f u)); [apply derivable_pt_lim_const|].
    apply (derivable_pt_lim_scal f). exact D. }
  assert (Fc : forall a c g l, (forall u, g u = a + c * cos (5 * u)) -> l = c * (- sin (5 * s) * 5) -> derivable_pt_lim g s l).
  { intros a c g l E ->. apply (lim_ext (fun u => a + c * cos (5 * u))); [intro; symmetry; apply E|]. apply Lin, Dc. }
  assert (Fs : forall a c g l, (forall u, g u = a + c * sin (5 * u)) -> l = c * (cos (5 * s) * 5) -> derivable_pt_lim g s l).
  { intros a c g l E ->. apply (lim_ext (fun u => a + c * sin (5 * u))); [intro; symmetry; apply E|]. apply Lin, Ds. }
  intros a b Ha Hb. unfold coherent, mmult. cbn [csum]. rewrite !mw_full by lia.
  destruct a as [|[|[|a]]]; try lia; destruct b as [|[|[|b]]]; try lia; unfold mrho; split.
  - apply (Fc (13 / 50) (6 / 25)); [intro; cbn; field|cbn; field].
  - apply (Fc 0 0); [intro; cbn; field|cbn; field].
  - apply (Fc (- (9 / 50)) (- (8 / 25))); [intro; cbn; field|cbn; field].
  - apply (Fs 0 (- (2 / 5))); [intro; cbn; field|cbn; field].
  - apply (Fc 0 0); [intro; cbn; field|cbn; field].
  - apply (Fc 0 0); [intro; cbn; field|cbn; field].
  - apply (Fc (- (9 / 50)) (- (8 / 25))); [intro; cbn; field|cbn; field].
  - apply (Fs 0 (2 / 5)); [intro; cbn; field|cbn; field].
  - apply (Fc (37 / 50) (- (6 / 25))); [intro; cbn; field|cbn; field].
  - apply (Fc 0 0); [intro; cbn; field|cbn; field].
  - apply (Fc 0 0); [intro; cbn; field|cbn; field].
  - apply (Fc 0 0); [intro; cbn; field|cbn; field].
  - apply (Fc 0 0); [intro; cbn; field|cbn; field].
  - apply (Fc 0 0); [intro; cbn; field|cbn; field].
  - apply (Fc 0 0); [intro; cbn; field|cbn; field].
  - apply (Fc 0 0); [intro; cbn; field|cbn; field].
  - apply (Fc 0 0); [intro; cbn; field|cbn; field].
  - apply (Fc 0 0); [intro; cbn; field|cbn; field].
Qed.
Example c92_case : w_ok mw /\ (forall t, 0 <= t -> transition mw BMass 0 t 0 0 (17 / 25 + 8 / 25 * cos (5 * t)) /\ transition mw BMass 0 t 0 1 (8 / 25 - 8 / 25 * cos (5 * t))) /\
  transition mw BMass 0 (PI / 5) 0 0 (9 / 25).
Proof.
  assert (T : forall t, 0 <= t -> transition mw BMass 0 t 0 0 (17 / 25 + 8 / 25 * cos (5 * t)) /\ transition mw BMass 0 t 0 1 (8 / 25 - 8 / 25 * cos (5 * t))).
  { assert (I : meq 3 (mrho 0) (ini_state 3 BFlavor (w_P mw) (unit_of 0))).
    { apply meq_sym. eapply meq_trans; [apply (unit_start mw 0); cbn; lia|]. eapply meq_trans; [apply mw_P; lia|]. cbn [Nat.eqb].
      intros a b Ha Hb. unfold mrho, half. rewrite Rmult_0_r, cos_0, sin_0.
      destruct a as [|[|[|a]]]; try lia; destruct b as [|[|[|b]]]; try lia; apply Ceq; cbn; field. }
    intros t _. split; exists mrho; (split; [apply mw_crossing|]; split; [exact I|]); cbn [eval_flavor]; change (w_n mw) with 3%nat.
    - rewrite (expect_meq 3 _ _ _ _ (mw_P 0 ltac:(lia)) (meq_refl 3 _)). unfold expect, trace, mmult, half, mrho. cbn. field.
    - rewrite (expect_meq 3 _ _ _ _ (mw_P 1 ltac:(lia)) (meq_refl 3 _)). unfold expect, trace, mmult, half, mrho. cbn. field. }
  split; [exact mw_ok|]. split; [exact T|].
  replace (9 / 25) with (17 / 25 + 8 / 25 * cos (5 * (PI / 5))); [apply T; pose proof PI_RGT_0; lra|].
  replace (5 * (PI / 5)) with PI by field. rewrite cos_PI. field.
Qed.

Print Assumptions c92_determined.
Print Assumptions c92_fluxes_add.
Print Assumptions c92_rows.
Print Assumptions c92_bounds.
Print Assumptions c92_columns.
Print Assumptions c92_equal_fluxes.
Print Assumptions c92_reversal.
Print Assumptions c92_reciprocity.
Print Assumptions c92_mirror.
Print Assumptions c92_scaling.
Print Assumptions c92_shared_potential.
