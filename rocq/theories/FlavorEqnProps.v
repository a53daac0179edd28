(** Rates of change of the flavour content, bases of evolution and layered
    paths (C68, C69, C70). *)
From Coq Require Import Reals List Arith Bool Lia Lra Ring.
From Verif Require Import CMatrix FlavorModel FlavorProofs FlavorProps FlavorEqn.
Import ListNotations.
Open Scope R_scope.

(** ** C68 *)

(** The loss term takes from each active flavour exactly its interaction rate
    times its content, and the gain term adds exactly the gain computed for it;
    other flavours only get their source. *)
Theorem c68_content_rate n th dl order nt r H Q t t0 inter sources invlen gain ext rho k :
  (3 <= n)%nat -> pairs_ok n order -> (k < n)%nat ->
  let Pt := evolved H t t0 (b1_proj n th dl order nt r) in
  expect n (Pt k) (rhs n Q (gamma_rho inter invlen Pt) (interactions_rho n inter sources gain ext Pt) rho) =
  expect n (Pt k) (coherent n Q rho)
  + (if inter && Nat.ltb k 3
     then - invlen k * eval_flavor n BInter H t t0 (b1_proj n th dl order nt r) rho k + gain k else 0)
  + (if sources then ext k else 0).
Proof.
  intros L O Hk Pt. pose proof (mixing_unitary n th (fixed_phases nt r dl) order O) as U.
  pose proof (frame_b1 n th dl order nt r) as F.
  rewrite (content_rate n _ Pt Q inter sources invlen gain ext rho k L
    (turned_unitary n H (t - t0) _ U) (frame_evolve n H (t - t0) _ _ F) Hk).
  unfold lost, regained. cbn [eval_flavor]. unfold Pt, evolved. destruct (inter && Nat.ltb k 3), sources; ring.
Qed.

(** The sum over flavours changes at the rate of all losses and gains,
    whatever the hamiltonian. *)
Theorem c68_total_rate n th dl order nt r H (Q : R -> mat) t t0 inter sources invlen gain ext (rho : R -> mat) :
  (3 <= n)%nat -> pairs_ok n order ->
  let P := b1_proj n th dl order nt r in
  let Pt := evolved H t t0 P in
  mderiv n rho t (rhs n (Q t) (gamma_rho inter invlen Pt) (interactions_rho n inter sources gain ext Pt) (rho t)) ->
  derivable_pt_lim (fun s => rsum n (eval_flavor n BInter H s t0 P (rho s))) t
    (rsum n (fun k =>
      (if inter && Nat.ltb k 3 then - invlen k * eval_flavor n BInter H t t0 P (rho t) k + gain k else 0)
      + (if sources then ext k else 0))).
Proof.
  intros L O P Pt D. apply trace_deriv in D.
  assert (E : re (trace n (rhs n (Q t) (gamma_rho inter invlen Pt) (interactions_rho n inter sources gain ext Pt) (rho t))) =
    rsum n (fun k =>
      (if inter && Nat.ltb k 3 then - invlen k * eval_flavor n BInter H t t0 P (rho t) k + gain k else 0)
      + (if sources then ext k else 0))).
  { rewrite <- (eval_total n th dl order nt r BInter H t t0 _ O). cbn [eval_flavor].
    rewrite (rsum_ext n _ (fun k => expect n (Pt k) (coherent n (Q t) (rho t)) +
      ((if inter && Nat.ltb k 3 then - invlen k * eval_flavor n BInter H t t0 P (rho t) k + gain k else 0)
      + (if sources then ext k else 0)))).
    2:{ intros k Hk. rewrite <- Rplus_assoc. apply c68_content_rate; assumption. }
    rewrite rsum_plus. cbn [eval_flavor].
    assert (Z : rsum n (fun k => expect n (Pt k) (coherent n (Q t) (rho t))) = re (trace n (coherent n (Q t) (rho t))))
      by exact (eval_total n th dl order nt r BInter H t t0 (coherent n (Q t) (rho t)) O).
    rewrite Z, coherent_trace. cbn [re c0]. ring. }
  rewrite E in D. intros eps He. destruct (D eps He) as (d & Hd). exists d. intros h H0 H1.
  unfold P. rewrite !eval_total by exact O. apply Hd; assumption.
Qed.

(** With oscillations off, each flavour follows its own losses and gains. *)
Theorem c68_no_oscillations n th dl order nt r ediff E cc nc t t0 inter sources invlen gain ext (rho : R -> mat) k :
  (3 <= n)%nat -> pairs_ok n order -> (k < n)%nat ->
  let P := b1_proj n th dl order nt r in
  let H := h0 n false ediff E in
  let Pt := evolved H t t0 P in
  mderiv n rho t (rhs n (hi BInter H cc nc Pt) (gamma_rho inter invlen Pt)
                        (interactions_rho n inter sources gain ext Pt) (rho t)) ->
  derivable_pt_lim (fun s => eval_flavor n BInter H s t0 P (rho s) k) t
    ((if inter && Nat.ltb k 3 then - invlen k * eval_flavor n BInter H t t0 P (rho t) k + gain k else 0)
     + (if sources then ext k else 0)).
Proof.
  intros L O Hk P H Pt D. pose proof (mixing_unitary n th (fixed_phases nt r dl) order O) as U.
  pose proof (frame_b1 n th dl order nt r) as F. fold P in F.
  assert (Same : forall s j, meq n (evolve H s (P j)) (P j)).
  { intros s j a b _ _. unfold evolve, H, h0, mzero. cbn [re c0]. rewrite Rminus_diag_eq, Rmult_0_l, cexp_0 by reflexivity. ring. }
  assert (Pos : meq n (hi BInter H cc nc Pt) (msum n (fun j => mscale
    (match j with 0%nat => cc + nc | 1%nat | 2%nat => nc | _ => 0 end) (Pt j)))).
  { intros a b _ _. rewrite msum_at, (csum_split3 n) by exact L. unfold hi, mplus, mscale. cbn [Nat.add].
    rewrite (csum_zero (n - 3)); [ring|]. intros l _. rewrite rtc_0. ring. }
  assert (R1 : expect n (Pt k) (coherent n (hi BInter H cc nc Pt) (rho t)) = 0).
  { exact (coherent_expect n _ Pt _ (rho t) _ k (turned_unitary n H (t - t0) _ U) (frame_evolve n H (t - t0) _ _ F) Hk Pos). }
  pose proof (c68_content_rate n th dl order nt r H (hi BInter H cc nc Pt) t t0 inter sources invlen gain ext (rho t) k L O Hk) as Rt.
  cbv zeta in Rt. fold P in Rt. fold Pt in Rt. rewrite R1, Rplus_0_l in Rt. rewrite <- Rt.
  set (Dm := rhs n _ _ _ _) in *.
  assert (G : derivable_pt_lim (fun s => expect n (P k) (rho s)) t (expect n (P k) Dm)).
  { unfold expect, trace. clear - D.
    assert (I : forall i m, (i < n)%nat -> (m <= n)%nat ->
      derivable_pt_lim (fun s => re (csum m (fun l => cmult (P k i l) (rho s l i)))) t
                       (re (csum m (fun l => cmult (P k i l) (Dm l i))))).
    { intros i m Hi. induction m as [|m IH]; intro Lm; [apply derivable_pt_lim_const|]. cbn [csum cplus re].
      apply (derivable_pt_lim_plus (fun s => re (csum m (fun l => cmult (P k i l) (rho s l i))))
                                   (fun s => re (cmult (P k i m) (rho s m i)))); [apply IH; lia|].
      cbn [re cmult]. destruct (D m i) as (D1 & D2); [lia|lia|].
      apply (derivable_pt_lim_minus (fun s => re (P k i m) * re (rho s m i)) (fun s => im (P k i m) * im (rho s m i)));
      apply (derivable_pt_lim_scal (fun s => _ (rho s m i))); assumption. }
    assert (J : forall m, (m <= n)%nat ->
      derivable_pt_lim (fun s => re (csum m (fun i => mmult n (P k) (rho s) i i))) t
                       (re (csum m (fun i => mmult n (P k) Dm i i)))).
    { induction m as [|m IH]; intro Lm; [apply derivable_pt_lim_const|]. cbn [csum cplus re].
      apply (derivable_pt_lim_plus (fun s => re (csum m (fun i => mmult n (P k) (rho s) i i)))
                                   (fun s => re (mmult n (P k) (rho s) m m))); [apply IH; lia|].
      apply I; lia. }
    apply J. lia. }
  assert (X : expect n (Pt k) Dm = expect n (P k) Dm) by (apply expect_meq; [apply Same|apply meq_refl]).
  rewrite X. intros eps He. destruct (G eps He) as (d & Hd). exists d. intros h H0 H1. cbn [eval_flavor].
  rewrite !(expect_meq n (evolve H _ (P k)) (P k) _ _ (Same _ k) (meq_refl n _)). apply Hd; assumption.
Qed.

(** ** C69 *)

(** A solution of the equation in the mass basis, seen from the interaction
    basis, solves the equation there, with all terms; both begin with the same
    state and show the same content of every flavour at all times. *)
Theorem c69_same_content n th dl order nt r osc ediff E inter sources (cc nc : R -> R)
    (invlen gain ext : R -> nat -> R) (sigma : R -> mat) t0 t1 :
  let P := b1_proj n th dl order nt r in
  let H := h0 n osc ediff E in
  (forall s, t0 <= s <= t1 ->
    mderiv n sigma s (rhs n (hi BMass H (cc s) (nc s) P) (gamma_rho inter (invlen s) P)
                            (interactions_rho n inter sources (gain s) (ext s) P) (sigma s))) ->
  let rho := fun s => evolve H (s - t0) (sigma s) in
  (forall s, t0 <= s <= t1 ->
    mderiv n rho s (rhs n (hi BInter H (cc s) (nc s) (evolved H s t0 P)) (gamma_rho inter (invlen s) (evolved H s t0 P))
                          (interactions_rho n inter sources (gain s) (ext s) (evolved H s t0 P)) (rho s))) /\
  meq n (rho t0) (sigma t0) /\
  forall s k, eval_flavor n BInter H s t0 P (rho s) k = eval_flavor n BMass H s t0 P (sigma s) k.
Proof.
  intros P H D rho. split; [|split].
  - intros s Hs. specialize (D s Hs). unfold hi in D.
    pose proof (change_of_basis n H _ _ _ sigma t0 s (h0_diag_real n osc ediff E) D) as M.
    eapply mderiv_meq; [|exact M]. unfold rhs, evolved, rho.
    assert (Hh : meq n (evolve H (s - t0) (mplus (mplus (mscale (cc s + nc s) (P 0%nat)) (mscale (nc s) (P 1%nat))) (mscale (nc s) (P 2%nat))))
      (hi BInter H (cc s) (nc s) (fun k => evolve H (s - t0) (P k)))).
    { intros a b _ _. unfold hi, evolve, mplus, mscale. ring. }
    repeat apply mplus_meq.
    + intros a b Ha Hb. unfold coherent.
      rewrite (mmult_meq n _ _ _ _ Hh (meq_refl n _) a b Ha Hb), (mmult_meq n _ _ _ _ (meq_refl n _) Hh a b Ha Hb). reflexivity.
    + apply mscale_meq. unfold anti. apply mplus_meq; apply mmult_meq; try apply meq_refl; apply evolve_gamma.
    + apply evolve_interactions.
  - apply evolve_none.
  - intros s k. cbn [eval_flavor]. unfold expect, rho. rewrite evolve_shift. reflexivity.
Qed.

(** The shortcut for constant density conjugates with the propagator of the
    full hamiltonian: that solves the equation of the mass basis, so what it
    shows is what the numerical solution in the interaction basis shows. *)
Theorem c69_shortcut_solves n th dl order nt r osc ediff E cc nc (W : R -> mat) rho0 t : (3 <= n)%nat ->
  let P := b1_proj n th dl order nt r in
  let H := hi BMass (h0 n osc ediff E) cc nc P in
  mderiv n W t (generated n H (W t)) ->
  mderiv n (fun s => conjugated n (W s) rho0) t
    (rhs n H (gamma_rho false (fun _ => 0) P) (interactions_rho n false false (fun _ => 0) (fun _ => 0) P)
         (conjugated n (W t) rho0)).
Proof.
  intros L P H D. apply (propagator_solves n H W rho0 t); [|exact D].
  exact (hi_hermitian n _ P BMass _ cc nc L (frame_b1 n th dl order nt r) (h0_diag_real n osc ediff E)).
Qed.

(** ** C70 *)

Definition len (l : layer) : R := match l with Numeric d | Shortcut d => d end.
Definition total_len (ls : list layer) : R := fold_right Rplus 0 (map len ls).
Definition is_shortcut (l : layer) : bool := match l with Shortcut _ => true | _ => false end.
(** length of the layers that count *)
Definition effective (ls : list layer) : R :=
  if existsb is_shortcut ls then total_len (filter is_shortcut ls) else total_len ls.

(** the content read after crossing the layers *)
Definition read_after n H P (rho : mat) (ls : list layer) (k : nat) : R :=
  let p := cross_all H (start rho) ls in
  eval_flavor n (p_basis p) H (p_time p) 0 P (p_rho p) k.

Lemma evolve_evolve n H s t A : meq n (evolve H s (evolve H t A)) (evolve H (s + t) A).
Proof.
  intros a b _ _. unfold evolve.
  replace ((re (H a a) - re (H b b)) * (s + t)) with ((re (H a a) - re (H b b)) * s + (re (H a a) - re (H b b)) * t) by ring.
  rewrite <- cexp_plus. ring.
Qed.

Lemma cross_off n H ls p : p_basis p = BMass -> p_numerics p = false ->
  let q := cross_all H p ls in
  p_basis q = BMass /\ meq n (p_rho q) (evolve H (- total_len (filter is_shortcut ls)) (p_rho p)).
Proof.
  revert p. induction ls as [|l ls IH]; intros p B N; cbv zeta; unfold cross_all; cbn [fold_left].
  - split; [exact B|]. cbn. intros a b _ _. unfold evolve. rewrite Ropp_0, Rmult_0_r, cexp_0. ring.
  - destruct l as [d|d].
    + specialize (IH (cross H p (Numeric d)) B N). cbn [filter is_shortcut].
      assert (Q : p_rho (cross H p (Numeric d)) = p_rho p) by (cbn; rewrite N; reflexivity).
      rewrite Q in IH. exact IH.
    + specialize (IH (cross H p (Shortcut d)) eq_refl eq_refl). destruct IH as (IH1 & IH2). split; [exact IH1|].
      eapply meq_trans; [exact IH2|]. cbn [cross p_rho filter is_shortcut]. unfold shortcut_vacuum.
      eapply meq_trans; [apply evolve_evolve|]. unfold total_len. cbn [map len fold_right].
      rewrite Ropp_plus_distr, Rplus_comm. apply meq_refl.
Qed.

Lemma cross_on n H ls rho tau :
  let q := cross_all H (Path BInter true tau rho) ls in
  if existsb is_shortcut ls
  then p_basis q = BMass /\ meq n (p_rho q) (evolve H (- total_len (filter is_shortcut ls)) rho)
  else p_basis q = BInter /\ p_time q = tau + total_len ls /\ p_rho q = rho.
Proof.
  revert tau. induction ls as [|l ls IH]; intro tau; cbv zeta; unfold cross_all; cbn [fold_left existsb].
  - cbn. repeat split. unfold total_len. cbn. ring.
  - destruct l as [d|d]; cbn [is_shortcut orb filter].
    + specialize (IH (tau + d)). unfold cross. cbn [p_basis p_numerics p_time p_rho].
      destruct (existsb is_shortcut ls); [exact IH|]. destruct IH as (I1 & I2 & I3). repeat split; try assumption.
      etransitivity; [exact I2|]. unfold total_len. cbn [map len fold_right]. ring.
    + destruct (cross_off n H ls (cross H (Path BInter true tau rho) (Shortcut d)) eq_refl eq_refl) as (C1 & C2).
      split; [exact C1|]. eapply meq_trans; [exact C2|]. cbn [cross p_rho]. unfold shortcut_vacuum.
      eapply meq_trans; [apply evolve_evolve|]. unfold total_len. cbn [map len fold_right].
      rewrite Ropp_plus_distr, Rplus_comm. apply meq_refl.
Qed.

(** What is read after any layers is the textbook content, but for the
    effective length: once a layer has taken the shortcut, only such layers count. *)
Theorem c70_effective_length n th dl order nt r osc ediff E v ls k : pairs_ok n order -> (k < n)%nat -> E <> 0 ->
  let P := b1_proj n th dl order nt r in
  read_after n (h0 n osc ediff E) P (ini_state n BFlavor P v) ls k =
  rsum n (fun j => v j * osc_prob n (mixing n th (fixed_phases nt r dl) order)
                           (fun a => if osc then splitting ediff E a else 0) (effective ls) j k).
Proof.
  intros O Hk HE P. set (H := h0 n osc ediff E). unfold read_after, effective.
  pose proof (cross_on n H ls (ini_state n BFlavor P v) 0) as Cr. cbv zeta in Cr.
  pose proof (fun t => c55_vacuum_probability n th dl order nt r osc ediff E t 0 v k O Hk HE) as V. cbv zeta in V.
  fold P in V. fold H in V. unfold start.
  destruct (existsb is_shortcut ls).
  - destruct Cr as (B & M). rewrite B. cbn [eval_flavor].
    set (L := total_len (filter is_shortcut ls)) in *. specialize (V L). rewrite Rminus_0_r in V. rewrite <- V.
    rewrite (expect_meq n _ _ _ _ (meq_refl n _) M). cbn [eval_flavor]. rewrite Rminus_0_r.
    unfold expect. rewrite <- (evolve_shift n H L (P k)). f_equal. apply trace_meq, mmult_meq; [apply meq_refl|].
    eapply meq_trans; [apply evolve_evolve|]. rewrite Rplus_opp_r. intros a b _ _. unfold evolve.
    rewrite Rmult_0_r, cexp_0. ring.
  - destruct Cr as (B & T & M). rewrite B, T, M. specialize (V (0 + total_len ls)). rewrite Rminus_0_r in V.
    rewrite V, Rplus_0_l. reflexivity.
Qed.

(** So it is right if all layers are of the same kind. *)
Theorem c70_layers_partial n th dl order nt r osc ediff E v ls k : pairs_ok n order -> (k < n)%nat -> E <> 0 ->
  forallb is_shortcut ls = true \/ existsb is_shortcut ls = false ->
  let P := b1_proj n th dl order nt r in
  read_after n (h0 n osc ediff E) P (ini_state n BFlavor P v) ls k =
  rsum n (fun j => v j * osc_prob n (mixing n th (fixed_phases nt r dl) order)
                           (fun a => if osc then splitting ediff E a else 0) (total_len ls) j k).
Proof.
  intros O Hk HE U P. unfold P. rewrite c70_effective_length by assumption.
  assert (Eff : effective ls = total_len ls); [|rewrite Eff; reflexivity].
  unfold effective. destruct U as [A| ->]; [|reflexivity].
  assert (F : filter is_shortcut ls = ls).
  { clear - A. induction ls as [|l ls IH]; [reflexivity|]. cbn in *. apply andb_true_iff in A as (A1 & A2).
    rewrite A1, IH by exact A2. reflexivity. }
  rewrite F. destruct (existsb is_shortcut ls); reflexivity.
Qed.

(** Maximal mixing of two of three flavours, with the other angles zero. *)
Definition th_ex (i j : nat) : R := match i, j with 0%nat, 1%nat => PI / 4 | _, _ => 0 end.
Definition order_ex : list (nat * nat) := [(0, 1); (0, 2); (1, 2)]%nat.
Definition v_ex (j : nat) : R := match j with 0%nat => 1 | _ => 0 end.
Definition ediff_ex (i : nat) : R := match i with 1%nat => 2 * PI | _ => 0 end.

Lemma order_ex_ok : pairs_ok 3 order_ex.
Proof. repeat constructor; cbn; lia. Qed.

Lemma rot_none i j dl a b : rot i j 0 dl a b = delta a b.
Proof.
  unfold rot. rewrite sin_0, cos_0, Ropp_0, rtc_1, rtc_0. unfold delta.
  destruct (Nat.eqb a i) eqn:A; [apply Nat.eqb_eq in A as ->|].
  - rewrite (Nat.eqb_sym i b). destruct (Nat.eqb b i) eqn:B; [reflexivity|].
    destruct (Nat.eqb b j); [ring|reflexivity].
  - destruct (Nat.eqb a j) eqn:A2; [apply Nat.eqb_eq in A2 as ->|reflexivity].
    rewrite (Nat.eqb_sym j b). destruct (Nat.eqb b i) eqn:B.
    + apply Nat.eqb_eq in B as ->. rewrite Nat.eqb_sym, A. ring.
    + destruct (Nat.eqb b j); reflexivity.
Qed.

Lemma mixing_ex dl a b : (a < 3)%nat -> (b < 3)%nat ->
  mixing 3 th_ex dl order_ex a b = rot 0 1 (PI / 4) (dl 0 1)%nat a b.
Proof.
  intros Ha Hb. unfold order_ex. cbn [mixing th_ex].
  assert (I1 : meq 3 (mmult 3 (rot 1 2 0 (dl 1 2)%nat) mid) mid).
  { eapply meq_trans; [apply mmult_id_r|]. intros i j _ _. apply rot_none. }
  assert (I2 : meq 3 (mmult 3 (rot 0 2 0 (dl 0 2)%nat) (mmult 3 (rot 1 2 0 (dl 1 2)%nat) mid)) mid).
  { eapply meq_trans; [apply mmult_meq; [|exact I1]|apply mmult_id_r]. intros i j _ _. apply rot_none. }
  rewrite (mmult_meq 3 _ _ _ _ (meq_refl 3 _) I2 a b Ha Hb). apply mmult_id_r; assumption.
Qed.

Lemma osc_prob_ex L dl : dl 0%nat 1%nat = 0 ->
  osc_prob 3 (mixing 3 th_ex dl order_ex) (splitting ediff_ex 1) L 0 0 = (1 + cos (PI * L)) / 2.
Proof.
  intro D. unfold osc_prob. cbn [csum].
  assert (V0 : mixing 3 th_ex dl order_ex 0%nat 0%nat = rtc (cos (PI / 4))) by (rewrite mixing_ex by lia; reflexivity).
  assert (V1 : mixing 3 th_ex dl order_ex 1%nat 0%nat = rtc (- sin (PI / 4))).
  { rewrite mixing_ex by lia. cbn [rot Nat.eqb]. rewrite D, cexp_0. ring. }
  assert (V2 : mixing 3 th_ex dl order_ex 2%nat 0%nat = c0) by (rewrite mixing_ex by lia; reflexivity).
  rewrite V0, V1, V2. cbn [splitting ediff_ex].
  replace (2 * PI / (2 * 1) * L) with (PI * L) by field.
  assert (S : sin (PI / 4) * sin (PI / 4) = / 2).
  { rewrite sin_PI4. replace (1 / sqrt 2 * (1 / sqrt 2)) with (/ (sqrt 2 * sqrt 2)) by (field; apply Rgt_not_eq, sqrt_lt_R0; lra).
    rewrite sqrt_sqrt by lra. reflexivity. }
  assert (Co : cos (PI / 4) * cos (PI / 4) = / 2) by (rewrite <- sin_cos_PI4; exact S).
  unfold cnorm2. cbn. rewrite Rmult_0_l, cos_0, sin_0.
  set (s := sin (PI / 4)) in *. set (c := cos (PI / 4)) in *.
  set (x := cos (PI * L)). set (y := sin (PI * L)).
  assert (Q : x * x + y * y = 1). { pose proof (sin2_cos2 (PI * L)) as T. unfold Rsqr in T. unfold x, y. lra. }
  match goal with |- ?a * ?a + ?b * ?b = _ =>
    replace a with (/ 2 + / 2 * x); [replace b with (/ 2 * y)|] end.
  - nra.
  - rewrite <- S at 1. ring.
  - rewrite <- Co at 1. rewrite <- S at 1. ring.
Qed.

(** Mixed layers are read wrongly: after one half of an oscillation in a layer
    solved numerically and another half in one with the shortcut, or the other
    way round, all the flux should be back; none of it is seen. *)
Theorem c70_layers_refuted : exists n th order ediff E v,
  pairs_ok n order /\
  let P := b1_proj n th (fun _ _ => 0) order Neutrino 0 in
  let H := h0 n true ediff E in
  let prob := osc_prob n (mixing n th (fun _ _ => 0) order) (splitting ediff E) in
  let right ls := rsum n (fun j => v j * prob (total_len ls) j 0%nat) in
  let read ls := read_after n H P (ini_state n BFlavor P v) ls 0 in
  right [Numeric 1; Shortcut 1] = 1 /\ read [Numeric 1; Shortcut 1] = 0 /\
  right [Shortcut 1; Numeric 1] = 1 /\ read [Shortcut 1; Numeric 1] = 0 /\
  read [Numeric 1; Numeric 1] = 1 /\ read [Shortcut 1; Shortcut 1] = 1.
Proof.
  exists 3%nat, th_ex, order_ex, ediff_ex, 1, v_ex. split; [exact order_ex_ok|]. cbv beta zeta.
  assert (Red : forall ls, read_after 3 (h0 3 true ediff_ex 1) (b1_proj 3 th_ex (fun _ _ => 0) order_ex Neutrino 0)
    (ini_state 3 BFlavor (b1_proj 3 th_ex (fun _ _ => 0) order_ex Neutrino 0) v_ex) ls 0 =
    (1 + cos (PI * effective ls)) / 2).
  { intro ls. rewrite c70_effective_length by (try exact order_ex_ok; try lia; lra). cbn [fixed_phases rsum v_ex].
    rewrite <- (osc_prob_ex (effective ls) (fun _ _ => 0) eq_refl).
    change (fun a : nat => splitting ediff_ex 1 a) with (splitting ediff_ex 1). ring. }
  assert (Rig : forall ls, rsum 3 (fun j => v_ex j * osc_prob 3 (mixing 3 th_ex (fun _ _ => 0) order_ex)
     (splitting ediff_ex 1) (total_len ls) j 0%nat) = (1 + cos (PI * total_len ls)) / 2).
  { intro ls. cbn [rsum v_ex]. rewrite <- (osc_prob_ex (total_len ls) (fun _ _ => 0) eq_refl). ring. }
  rewrite !Red, !Rig. unfold effective, total_len.
  cbn [existsb is_shortcut orb filter map len fold_right].
  replace (PI * (1 + (1 + 0))) with (2 * PI) by ring. replace (PI * (1 + 0)) with PI by ring.
  rewrite cos_PI, cos_2PI.
  repeat split; lra.
Qed.

(** ** C71 *)

Lemma rot_conj i j th dl a b : rot i j th (- dl) a b = cconj (rot i j th dl a b).
Proof.
  assert (Dl : forall x y, delta x y = cconj (delta x y)).
  { intros x y. unfold delta. destruct (Nat.eqb x y); [symmetry; apply conj_1|symmetry; apply conj_0]. }
  unfold rot. destruct (Nat.eqb a i), (Nat.eqb a j), (Nat.eqb b i), (Nat.eqb b j);
  rewrite ?conj_mult, ?conj_rtc, ?cexp_conj; try reflexivity; apply Dl.
Qed.

Lemma mixing_conj n th dl order : meq n (mixing n th (fun i j => - dl i j) order)
                                     (fun a b => cconj (mixing n th dl order a b)).
Proof.
  induction order as [|(i, j) l IH]; cbn [mixing].
  - intros a b _ _. unfold mid, delta. destruct (Nat.eqb a b); [symmetry; apply conj_1|symmetry; apply conj_0].
  - intros a b Ha Hb. unfold mmult. rewrite csum_conj. apply csum_ext. intros k Hk.
    rewrite rot_conj, (IH k b Hk Hb), conj_mult. reflexivity.
Qed.

(** one unit of flavour [j] alone *)
Definition unit_of (j : nat) : nat -> R := fun i => if Nat.eqb i j then 1 else 0.

Lemma rsum_unit n j f : (j < n)%nat -> rsum n (fun i => unit_of j i * f i) = f j.
Proof.
  intro L. induction n as [|n IH]; [lia|]. cbn [rsum]. destruct (Nat.eq_dec j n) as [->|N].
  - assert (Z : rsum n (fun i => unit_of n i * f i) = 0).
    { clear. set (m := n) at 1. assert (m <= n)%nat as M by (unfold m; lia). clearbody m.
      induction m as [|m IH]; cbn [rsum]; [reflexivity|]. rewrite IH by lia. unfold unit_of.
      rewrite (proj2 (Nat.eqb_neq m n)) by lia. ring. }
    rewrite Z. unfold unit_of. rewrite Nat.eqb_refl. ring.
  - rewrite IH by lia. unfold unit_of at 1. rewrite (proj2 (Nat.eqb_neq n j)) by lia. ring.
Qed.

(** In vacuum an antineutrino goes from [j] to [k] as a neutrino goes from [k]
    to [j]; also in an object that has both. *)
Theorem c71_cpt n th dl order osc ediff E L j k nt r anti_nt anti_r : pairs_ok n order ->
  (j < n)%nat -> (k < n)%nat -> E <> 0 ->
  In (nt, r) [(Neutrino, 0); (Both, 0)]%nat -> In (anti_nt, anti_r) [(Antineutrino, 0); (Both, 1)]%nat ->
  let content nt r j k :=
    let P := b1_proj n th dl order nt r in
    eval_flavor n BInter (h0 n osc ediff E) L 0 P (ini_state n BFlavor P (unit_of j)) k in
  content anti_nt anti_r j k = content nt r k j.
Proof.
  intros O Hj Hk HE N A. cbv beta zeta. rewrite !c55_vacuum_probability by assumption.
  rewrite !rsum_unit by assumption.
  assert (Ph : fixed_phases nt r dl = dl) by (destruct N as [[= <- <-]|[[= <- <-]|[]]]; reflexivity).
  assert (Pa : fixed_phases anti_nt anti_r dl = fun i j => - dl i j) by (destruct A as [[= <- <-]|[[= <- <-]|[]]]; reflexivity).
  rewrite Ph, Pa. unfold osc_prob. f_equal. apply csum_ext. intros a Ha.
  rewrite !(mixing_conj n th dl order a) by assumption. rewrite conj_conj. ring.
Qed.

(** ** Non-trivial cases *)
Example c55_nonvacuous :
  let P := b1_proj 3 th_ex (fun _ _ => 0) order_ex Antineutrino 0 in
  eval_flavor 3 BInter (h0 3 true ediff_ex 1) 5 5 P (ini_state 3 BFlavor P v_ex) 0 = 1 /\
  eval_flavor 3 BInter (h0 3 true ediff_ex 1) 1 0 P (ini_state 3 BFlavor P v_ex) 0 = 0 /\
  forall t, mderiv 3 (fun _ => ini_state 3 BFlavor P v_ex) t
              (rhs 3 mzero mzero mzero (ini_state 3 BFlavor P v_ex)).
Proof.
  cbv zeta. split; [|split].
  - rewrite c55_flavor_readback by (try exact order_ex_ok; lia). reflexivity.
  - rewrite c55_vacuum_probability by (try exact order_ex_ok; try lia; lra). cbn [rsum v_ex].
    change (fun a : nat => splitting ediff_ex 1 a) with (splitting ediff_ex 1).
    rewrite osc_prob_ex by (cbn; ring). replace (PI * (1 - 0)) with PI by ring. rewrite cos_PI. field.
  - intro t. eapply mderiv_meq; [|apply mderiv_const]. intros a b _ _.
    unfold rhs, mplus, coherent, mscale, anti, mplus, mmult.
    rewrite !csum_zero; [unfold mzero; apply Ceq; cbn; ring|..]; intros k _; unfold mzero; ring.
Qed.

Example c71_nonvacuous :
  let P := b1_proj 3 th_ex (fun _ _ => 1) order_ex Both 1 in
  eval_flavor 3 BInter (h0 3 true ediff_ex 1) 0 0 P (ini_state 3 BFlavor P (unit_of 1)) 1 = 1.
Proof. cbv zeta. rewrite c55_flavor_readback by (try exact order_ex_ok; lia). reflexivity. Qed.

(** plain absorption of the first flavour *)
Example c68_nonvacuous :
  let P := b1_proj 3 (fun _ _ => 0) (fun _ _ => 0) [] Neutrino 0 in
  let H := h0 3 false ediff_ex 1 in
  let invlen := fun k => match k with 0%nat => 2 | _ => 0 end in
  let rho := fun s => mscale (exp (- (2 * s))) (b0_proj 0) in
  let Pt := evolved H 0 0 P in
  mderiv 3 rho 0 (rhs 3 (hi BInter H 0 0 Pt) (gamma_rho true invlen Pt)
                        (interactions_rho 3 true false (fun _ => 0) (fun _ => 0) Pt) (rho 0)) /\
  eval_flavor 3 BInter H 0 0 P (rho 0) 0 = 1.
Proof.
  cbv zeta. set (P := b1_proj 3 (fun _ _ => 0) (fun _ _ => 0) [] Neutrino 0). set (H := h0 3 false ediff_ex 1).
  assert (Pk : forall k, (k < 3)%nat -> meq 3 (evolved H 0 0 P k) (b0_proj k)).
  { intros k Hk. eapply meq_trans; [apply evolve_none|].
    eapply meq_trans; [apply rotated; exact Hk|]. apply meq_sym, frame_b0. exact Hk. }
  split.
  - set (D := mscale (- 2) (b0_proj 0)). apply (mderiv_meq 3 _ 0 D).
    + intros a b Ha Hb.
      assert (X : forall k, (k < 3)%nat -> forall i j, (i < 3)%nat -> (j < 3)%nat -> evolved H 0 0 P k i j = cmult (delta i k) (delta j k)).
      { intros k Hk i j Hi Hj. rewrite (Pk k Hk i j Hi Hj). reflexivity. }
      unfold D, rhs, coherent, anti, hi, gamma_rho, interactions_rho, mplus, mscale, mmult. cbn [csum negb andb].
      rewrite !X by lia. unfold b0_proj, ket_proj.
      destruct a as [|[|[|a]]]; try lia; destruct b as [|[|[|b]]]; try lia; cbn [delta Nat.eqb];
      apply Ceq; cbn; rewrite ?Rmult_0_r, ?Ropp_0, ?exp_0; field.
    + intros a b Ha Hb. unfold D, mscale. split; cbn [re im cmult rtc].
      * assert (E : derivable_pt_lim (fun s => exp (- (2 * s))) 0 (-2)).
        { assert (E1 : derivable_pt_lim (fun s => -2 * s) 0 (-2)).
          { pose proof (derivable_pt_lim_scal id (-2) 0 1 (derivable_pt_lim_id 0)) as E0.
            rewrite Rmult_1_r in E0. exact E0. }
          pose proof (derivable_pt_lim_comp (fun s => -2 * s) exp 0 (-2) _ E1 (derivable_pt_lim_exp (-2 * 0))) as E2.
          rewrite Rmult_0_r, exp_0, Rmult_1_l in E2. intros eps He. destruct (E2 eps He) as (d & Hd). exists d.
          intros h H0 H1. specialize (Hd h H0 H1). unfold comp in Hd.
          replace (- (2 * (0 + h))) with (-2 * (0 + h)) by ring. replace (- (2 * 0)) with (-2 * 0) by ring. exact Hd. }
        set (x := re (b0_proj 0 a b)). set (y := im (b0_proj 0 a b)).
        pose proof (derivable_pt_lim_minus (fun s => exp (- (2 * s)) * x) (fun s => 0 * y) 0 _ _
          (derivable_pt_lim_mult (fun s => exp (- (2 * s))) (fun _ => x) 0 _ _ E (derivable_pt_lim_const x 0))
          (derivable_pt_lim_const (0 * y) 0)) as G.
        cbv beta in G.
        match type of G with derivable_pt_lim _ _ ?d =>
          replace d with (-2 * x - 0 * y) in G by ring end.
        exact G.
      * assert (Y : im (b0_proj 0 a b) = 0).
        { unfold b0_proj, ket_proj, delta. destruct (Nat.eqb a 0), (Nat.eqb b 0); cbn; ring. }
        rewrite Y. intros eps He. exists (mkposreal 1 Rlt_0_1). intros h _ _.
        match goal with |- Rabs ?x < _ => replace x with 0; [rewrite Rabs_R0; exact He|] end. unfold Rdiv. ring.
  - cbn [eval_flavor]. rewrite (expect_meq 3 _ (b0_proj 0) _ _ (Pk 0%nat ltac:(lia)) (meq_refl 3 _)).
    unfold expect, trace, mmult, mscale, b0_proj, ket_proj. cbn.
    replace (- (2 * 0)) with 0 by ring. rewrite exp_0. ring.
Qed.

(** vacuum in the mass basis *)
Example c69_nonvacuous :
  let P := b1_proj 3 th_ex (fun _ _ => 0) order_ex Neutrino 0 in
  let H := h0 3 true ediff_ex 1 in
  let sigma := fun s => evolve H (- 1 * (s - 0)) (ini_state 3 BFlavor P v_ex) in
  forall s, mderiv 3 sigma s (rhs 3 (hi BMass H 0 0 P) (gamma_rho false (fun _ => 0) P)
                                    (interactions_rho 3 false false (fun _ => 0) (fun _ => 0) P) (sigma s)).
Proof.
  cbv zeta. intros s a b Ha Hb. set (H := h0 3 true ediff_ex 1). set (P := b1_proj _ _ _ _ _ _).
  set (A := ini_state 3 BFlavor P v_ex). set (w := re (H a a) - re (H b b)).
  pose proof (cderiv_mult _ (fun _ => A a b) s _ c0 (cderiv_phase (- w) 0 s)
    (conj (derivable_pt_lim_const _ _) (derivable_pt_lim_const _ _))) as M.
  assert (E : (mkC 0 (- w) * cexp (- w * (s - 0)) * A a b + cexp (- w * (s - 0)) * c0)%C =
    rhs 3 (hi BMass H 0 0 P) (gamma_rho false (fun _ => 0) P)
      (interactions_rho 3 false false (fun _ => 0) (fun _ => 0) P) (evolve H (- 1 * (s - 0)) A) a b).
  { pose proof (h0_diag_real 3 true ediff_ex 1 : diag_real 3 H) as D.
    set (S := evolve H (- 1 * (s - 0)) A).
    assert (Hi : meq 3 (hi BMass H 0 0 P) H).
    { intros i j _ _. unfold hi, mplus, mscale. rewrite Rplus_0_l, !rtc_0. ring. }
    unfold rhs, mplus, mscale, anti, mplus, coherent, gamma_rho, interactions_rho. cbn [negb andb].
    rewrite (mmult_meq 3 _ _ _ _ Hi (meq_refl 3 S) a b Ha Hb), (mmult_meq 3 _ _ _ _ (meq_refl 3 S) Hi a b Ha Hb).
    rewrite (diag_mult_l 3 H S a b D Ha Hb), (diag_mult_r 3 H S a b D Ha Hb).
    assert (Z1 : mmult 3 mzero S a b = c0) by (apply csum_zero; intros k _; unfold mzero; ring).
    assert (Z2 : mmult 3 S mzero a b = c0) by (apply csum_zero; intros k _; unfold mzero; ring).
    rewrite Z1, Z2. unfold S, evolve. fold w. replace (w * (- 1 * (s - 0))) with (- w * (s - 0)) by ring.
    set (ph := cexp _). unfold mzero. unfold w. unfold cminus.
    replace (mkC 0 (- (re (H a a) - re (H b b)))) with (mkC 0 (-1) * (rtc (re (H a a)) + - rtc (re (H b b))))%C by (apply Ceq; cbn; ring).
    replace (rtc (-1)) with (- c1)%C by (apply Ceq; cbn; ring). ring. }
  rewrite <- E. destruct M as (M1 & M2).
  assert (Q : forall x, evolve H (- 1 * (x - 0)) A a b = (cexp (- w * (x - 0)) * A a b)%C).
  { intro x. unfold evolve. fold w. f_equal. f_equal. ring. }
  split; (intros eps He; [destruct (M1 eps He) as (d & Hd) + destruct (M2 eps He) as (d & Hd)]; exists d; intros h H0 H1; rewrite !Q; apply Hd; assumption).
Qed.

Print Assumptions c68_content_rate.
Print Assumptions c68_total_rate.
Print Assumptions c68_no_oscillations.
Print Assumptions c69_same_content.
Print Assumptions c69_shortcut_solves.
Print Assumptions c70_effective_length.
Print Assumptions c70_layers_partial.
Print Assumptions c70_layers_refuted.
Print Assumptions c71_cpt.
