(** Flavour content of initial and evolved states (C55, C68, C69, C70). *)
From Coq Require Import Reals List Arith Bool Lia Lra Ring.
From Verif Require Import CMatrix FlavorModel FlavorProofs.
Import ListNotations.
Open Scope R_scope.

(** ** Specification *)

(** Energy splitting of mass state [a] against the first: Delta m^2 / 2E. *)
Definition splitting (ediff : nat -> R) (E : R) (a : nat) : R :=
  match a with O => 0 | S _ => ediff a / (2 * E) end.

(** Textbook probability that a neutrino made as flavour [j] is seen as
    flavour [k] after a path [L] in vacuum. *)
Definition osc_prob (n : nat) (V : mat) (lambda : nat -> R) (L : R) (j k : nat) : R :=
  cnorm2 (csum n (fun a => cmult (cmult (cconj (V a j)) (V a k)) (cexp (lambda a * L)))).

(** ** C55 *)

Lemma evolve_none n H t A : meq n (evolve H (t - t) A) A.
Proof. intros a c _ _. unfold evolve. rewrite (Rminus_diag_eq t t eq_refl), Rmult_0_r, cexp_0. ring. Qed.

(** Right after a state is set in the flavour basis, the content of each
    flavour is what was set; for any mixing, any kind of neutrino, any energy
    and in either basis of evolution. *)
Theorem c55_flavor_readback n th dl order nt rho b H t v k : pairs_ok n order -> (k < n)%nat ->
  let P := b1_proj n th dl order nt rho in
  eval_flavor n b H t t P (ini_state n BFlavor P v) k = v k.
Proof.
  intros O Hk P. pose proof (mixing_unitary n th (fixed_phases nt rho dl) order O) as U.
  pose proof (frame_b1 n th dl order nt rho) as F.
  assert (E : expect n (P k) (ini_state n BFlavor P v) = v k).
  { unfold ini_state. rewrite (ini_content n _ P _ P v k U F U F Hk).
    rewrite <- (rsum_delta n v k Hk). apply rsum_ext. intros j Hj. rewrite col_dot by assumption. reflexivity. }
  rewrite <- E. destruct b; try reflexivity; cbn [eval_flavor];
  (apply expect_meq; [|apply meq_refl]); apply evolve_none.
Qed.

(** The same for mass states. *)
Theorem c55_mass_readback n P b H t v k : (k < n)%nat ->
  eval_mass n b H t t (ini_state n BMass P v) k = v k.
Proof.
  intros Hk. pose proof (unitary_id n) as U. pose proof (frame_b0 n) as F.
  assert (E : expect n (b0_proj k) (ini_state n BMass P v) = v k).
  { unfold ini_state. rewrite (ini_content n _ b0_proj _ b0_proj v k U F U F Hk).
    rewrite <- (rsum_delta n v k Hk). apply rsum_ext. intros j Hj. rewrite col_dot by assumption. reflexivity. }
  rewrite <- E. destruct b; try reflexivity; cbn [eval_mass];
  (apply expect_meq; [|apply meq_refl]); apply evolve_none.
Qed.

Lemma eval_total n th dl order nt r b H t t0 rho : pairs_ok n order ->
  rsum n (eval_flavor n b H t t0 (b1_proj n th dl order nt r) rho) = re (trace n rho).
Proof.
  intro O. pose proof (mixing_unitary n th (fixed_phases nt r dl) order O) as U.
  pose proof (frame_b1 n th dl order nt r) as F.
  destruct b; cbn [eval_flavor].
  - apply (frame_total n (turned H (t - t0) (mixing n th (fixed_phases nt r dl) order))
      (fun k => evolve H (t - t0) (b1_proj n th dl order nt r k))).
    + apply turned_unitary, U.
    + apply frame_evolve, F.
  - eapply frame_total; eassumption.
  - apply (frame_total n (turned H (t - t0) (mixing n th (fixed_phases nt r dl) order))
      (fun k => evolve H (t - t0) (b1_proj n th dl order nt r k))).
    + apply turned_unitary, U.
    + apply frame_evolve, F.
Qed.

Lemma trace_deriv n rho t D : mderiv n rho t D ->
  derivable_pt_lim (fun s => re (trace n (rho s))) t (re (trace n D)).
Proof.
  intro H. unfold trace.
  assert (G : forall m, (m <= n)%nat ->
    derivable_pt_lim (fun s => re (csum m (fun i => rho s i i))) t (re (csum m (fun i => D i i)))).
  { induction m as [|m IH]; intro L; [apply derivable_pt_lim_const|]. cbn [csum cplus re].
    apply (derivable_pt_lim_plus (fun s => re (csum m (fun i => rho s i i))) (fun s => re (rho s m m))).
    - apply IH. lia.
    - apply (H m m); lia. }
  apply G. lia.
Qed.

(** Without interactions and sources the sum over flavours stays what it was,
    for any matter potential along the path; of the solution of the equation
    nothing else is used. *)
Theorem c55_total_conserved n th dl order nt r b H (HI : R -> mat) (rho : R -> mat) t0 t : pairs_ok n order ->
  t0 <= t -> (forall s, t0 <= s <= t -> mderiv n rho s (rhs n (HI s) mzero mzero (rho s))) ->
  rsum n (eval_flavor n b H t t0 (b1_proj n th dl order nt r) (rho t)) =
  rsum n (eval_flavor n b H t0 t0 (b1_proj n th dl order nt r) (rho t0)).
Proof.
  intros O L D. rewrite !eval_total by exact O.
  assert (Z : forall s, re (trace n (rhs n (HI s) mzero mzero (rho s))) = 0).
  { intro s. unfold rhs. rewrite !trace_plus, trace_scale, coherent_trace. unfold anti. rewrite trace_plus.
    assert (A : trace n (mmult n mzero (rho s)) = c0).
    { apply csum_zero. intros i _. apply csum_zero. intros j _. unfold mzero. ring. }
    assert (B : trace n (mmult n (rho s) mzero) = c0) by (rewrite trace_cycle; exact A).
    assert (E : trace n mzero = c0) by (apply csum_zero; reflexivity).
    rewrite A, B, E. cbn. ring. }
  destruct (Rle_lt_or_eq_dec t0 t L) as [Lt|Eq]; [|rewrite Eq; reflexivity].
  destruct (MVT_cor2 (fun s => re (trace n (rho s)))
    (fun s => re (trace n (rhs n (HI s) mzero mzero (rho s)))) t0 t Lt) as (c & E & _).
  - intros c Hc. apply trace_deriv, D, Hc.
  - rewrite Z, Rmult_0_l in E. lra.
Qed.

(** What was set is the sum right after setting it, so it is the sum ever after. *)
Theorem c55_total_of_initial n th dl order nt r b ini H (HI : R -> mat) (rho : R -> mat) v t0 t : pairs_ok n order ->
  t0 <= t -> (forall s, t0 <= s <= t -> mderiv n rho s (rhs n (HI s) mzero mzero (rho s))) ->
  rho t0 = ini_state n ini (b1_proj n th dl order nt r) v ->
  rsum n (eval_flavor n b H t t0 (b1_proj n th dl order nt r) (rho t)) = rsum n v.
Proof.
  intros O L D E. rewrite (c55_total_conserved n th dl order nt r b H HI rho t0 t O L D), E, eval_total by exact O.
  unfold ini_state. destruct ini.
  - apply (ini_trace n mid b0_proj v (unitary_id n) (frame_b0 n)).
  - apply (ini_trace n mid b0_proj v (unitary_id n) (frame_b0 n)).
  - apply (ini_trace n _ _ v (mixing_unitary n th (fixed_phases nt r dl) order O) (frame_b1 n th dl order nt r)).
Qed.

Lemma h0_diag n osc ediff E a : (a < n)%nat -> E <> 0 ->
  re (h0 n osc ediff E a a) = if osc then splitting ediff E a else 0.
Proof.
  intros Ha HE. unfold h0. destruct osc; [|reflexivity].
  assert (D : dm2 n ediff a a = rtc (match a with O => 0 | S _ => ediff a end)).
  { unfold dm2. rewrite msum_at. destruct a as [|a].
    - apply csum_zero. intros i _. unfold mscale, b0_proj, ket_proj. rewrite delta_ne by lia. ring.
    - rewrite (csum_single _ a); [|lia|].
      + unfold mscale, b0_proj, ket_proj. rewrite delta_eq. ring.
      + intros i _ N. unfold mscale, b0_proj, ket_proj. rewrite delta_ne by lia. ring. }
  unfold mscale. rewrite D. unfold splitting. destruct a; cbn; field; exact HE.
Qed.

(** Seen after any path in vacuum, a state set in the flavour basis has the
    content of the textbook formula; with oscillations off it does not change. *)
Theorem c55_vacuum_probability n th dl order nt r osc ediff E t t0 v k : pairs_ok n order -> (k < n)%nat -> E <> 0 ->
  let P := b1_proj n th dl order nt r in
  let V := mixing n th (fixed_phases nt r dl) order in
  eval_flavor n BInter (h0 n osc ediff E) t t0 P (ini_state n BFlavor P v) k =
  rsum n (fun j => v j * osc_prob n V (fun a => if osc then splitting ediff E a else 0) (t - t0) j k).
Proof.
  intros O Hk HE P V. pose proof (mixing_unitary n th (fixed_phases nt r dl) order O) as U. fold V in U.
  pose proof (frame_b1 n th dl order nt r) as F. fold V P in F. cbn [eval_flavor]. unfold ini_state.
  rewrite (ini_content n (turned (h0 n osc ediff E) (t - t0) V)
    (fun k => evolve (h0 n osc ediff E) (t - t0) (P k)) V P v k
    (turned_unitary n _ _ V U) (frame_evolve n _ _ V P F) U F Hk).
  apply rsum_ext. intros j Hj. f_equal. unfold osc_prob. f_equal. unfold inner, turned. apply csum_ext.
  intros a Ha. rewrite h0_diag by assumption. ring.
Qed.

(** These are probabilities: none is negative, and each initial flavour ends up
    somewhere. *)
Theorem c55_probabilities n th dl order nt r lambda L : pairs_ok n order ->
  let p := osc_prob n (mixing n th (fixed_phases nt r dl) order) lambda L in
  (forall j k, 0 <= p j k) /\ (forall j, (j < n)%nat -> rsum n (p j) = 1).
Proof.
  intros O p. split; [intros; apply cnorm2_pos|]. intros j Hj.
  set (V := mixing n th (fixed_phases nt r dl) order) in *.
  pose proof (mixing_unitary n th (fixed_phases nt r dl) order O) as U. fold V in U.
  set (H := fun a b : nat => rtc (lambda a)).
  pose proof (turned_unitary n H L V U) as T.
  assert (F : frame n (turned H L V) (fun k => outer (fun a => turned H L V a k))) by (intros k _; apply meq_refl).
  pose proof (frame_total n _ _ (outer (fun a => V a j)) T F) as E.
  assert (One : trace n (outer (fun a => V a j)) = c1).
  { unfold trace, outer. rewrite <- (delta_eq j), <- (col_dot n V j j U Hj Hj). unfold inner.
    apply csum_ext. intros. ring. }
  rewrite One in E. cbn [re c1] in E. rewrite <- E. apply rsum_ext. intros k _. unfold p, osc_prob, expect.
  rewrite trace_outer. cbn [re rtc]. f_equal. unfold inner, turned, H. apply csum_ext. intros. cbn [re rtc]. ring.
Qed.

(** So a flux that is nowhere negative stays so in vacuum, and no flavour gets
    more than all there is. *)
Theorem c55_vacuum_bounds n th dl order nt r osc ediff E t t0 v k : pairs_ok n order -> (k < n)%nat -> E <> 0 ->
  (forall j, (j < n)%nat -> 0 <= v j) ->
  let P := b1_proj n th dl order nt r in
  0 <= eval_flavor n BInter (h0 n osc ediff E) t t0 P (ini_state n BFlavor P v) k <= rsum n v.
Proof.
  intros O Hk HE Hv P. unfold P. rewrite c55_vacuum_probability by assumption.
  set (lam := fun a => if osc then splitting ediff E a else 0).
  destruct (c55_probabilities n th dl order nt r lam (t - t0) O) as (Pos & Tot). cbv zeta in Pos, Tot.
  split.
  - apply rsum_pos. intros j Hj. apply Rmult_le_pos; [apply Hv, Hj|apply Pos].
  - apply rsum_le. intros j Hj. pose proof (Hv j Hj).
    pose proof (rsum_term n _ k Hk (fun i _ => Pos j i)) as Q. rewrite (Tot j Hj) in Q.
    rewrite <- (Rmult_1_r (v j)) at 2. apply Rmult_le_compat_l; assumption.
Qed.
Print Assumptions c55_flavor_readback.
Print Assumptions c55_mass_readback.
Print Assumptions c55_total_conserved.
Print Assumptions c55_total_of_initial.
Print Assumptions c55_vacuum_probability.
Print Assumptions c55_probabilities.
Print Assumptions c55_vacuum_bounds.
