(** C19, continued: when the adaptive quadrature finishes. *)
From Coq Require Import List Arith Reals Lra Lia Bool.
From Verif Require Import Err QuadModel QuadProofs QuadProps.
Import ListNotations.
Local Open Scope R_scope.

(** Between [a] and [b], the integrand is bounded near zero (nothing is asked if zero is away from the interval). *)
Definition tame_at_zero (f : R -> R) (a b : R) : Prop :=
  exists d M, 0 < d /\ forall x, Rmin a b <= x <= Rmax a b -> Rabs x < d -> Rabs (f x) <= M.

Section Term.
Variable f : R -> R.
Lemma eps_pos : 0 < epsilon.
Proof. unfold epsilon. apply Rinv_0_lt_compat, pow_lt. lra. Qed.

(** A piece after [n] splittings of an interval of width [W] inside of [A, B]. *)
Definition inside (A B W : R) (i : interval) (n : nat) : Prop :=
  ib i - ia i <= W * beta ^ n /\ ia i < ib i /\ genuine f i /\ A <= ia i /\ ib i <= B.
Lemma split_inside A B W i n : inside A B W i n -> Forall (fun j => inside A B W j (S n)) (split3 f i).
Proof.
  intros (Hw & Hlt & G & Ha & Hb). pose proof (split_chain f i G Hlt) as [(Sc1 & Sc2 & Sc3 & Sc4 & Sc5 & Sc6 & Sc7) Sg]. clear Sc1 Sc3 Sc5 Sc7.
  cbn [evaluate ia ib] in *.
  assert (E1 : spa i = pt (ia i) (ib i) 4) by (unfold genuine in G; rewrite G at 1; reflexivity).
  assert (E2 : spb i = pt (ia i) (ib i) 8) by (unfold genuine in G; rewrite G at 1; reflexivity).
  rewrite pt_4 in E1. rewrite pt_8 in E2. set (w := ib i - ia i) in *. pose proof beta_third as B3. pose proof beta_range as [B1 B2].
  assert (Hbw : w * beta <= W * beta ^ S n) by (cbn [pow]; replace (W * (beta * beta ^ n)) with (W * beta ^ n * beta) by ring; apply Rmult_le_compat_r; lra).
  assert (Hside : (1 / 2 - beta / 2) * w <= beta * w) by (apply Rmult_le_compat_r; unfold w; lra).
  assert (W1 : spa i - ia i = (1 / 2 - beta / 2) * w) by (rewrite E1; unfold w; field).
  assert (W2 : spb i - spa i = beta * w) by (rewrite E1, E2; unfold w; field).
  assert (W3 : ib i - spb i = (1 / 2 - beta / 2) * w) by (rewrite E2; unfold w; field).
  inversion Sg as [|? ? G1 Sg1]; subst. inversion Sg1 as [|? ? G2 Sg2]; subst. inversion Sg2 as [|? ? G3 _]; subst.
  unfold split3. apply Forall_cons; [|apply Forall_cons; [|apply Forall_cons; [|apply Forall_nil]]]; unfold inside; cbn [evaluate ia ib]; repeat split; trivial; lra.
Qed.

(** Pieces that the loop keeps for another turn. *)
Definition kept (tol : R) (i : interval) : Prop := 0 < badness i tol /\ can_subdivide i = true.
Lemma process_kept tol l : forall t stack, exists t' pushed, fold_left (process tol) l (t, stack) = (t', pushed ++ stack) /\
  (length pushed <= length l)%nat /\ (forall j, In j l -> kept tol j -> In j pushed) /\ Forall (fun j => In j l /\ kept tol j) pushed.
Proof.
  induction l as [|j l IHl]; intros t0 s0; cbn [fold_left].
  - exists t0, []. split; [reflexivity|]. split; [cbn; lia|]. split; [intros ? []|constructor].
  - assert (Hj : exists t1, (process tol (t0, s0) j = (t1, s0) /\ ~ kept tol j) \/ (process tol (t0, s0) j = (t1, j :: s0) /\ kept tol j)).
    { unfold process, kept. destruct (Rle_dec (badness j tol) 0); cbn [orb]; [eexists; left; split; [reflexivity|lra]|].
      destruct (can_subdivide j) eqn:E; cbn [negb]; eexists; [right; split; [reflexivity|split; [lra|reflexivity]]|left; split; [reflexivity|intros [_ X]; discriminate]]. }
    destruct Hj as (t1 & [[-> N]|[-> Y]]).
    + destruct (IHl t1 s0) as (t2 & pushed & -> & Hl & Hk & Hp). exists t2, pushed. split; [reflexivity|]. split; [cbn; lia|]. split.
      * intros i [<-|I] K; [contradiction|auto].
      * eapply Forall_impl; [|exact Hp]. cbn. tauto.
    + destruct (IHl t1 (j :: s0)) as (t2 & pushed & -> & Hl & Hk & Hp). exists t2, (pushed ++ [j]). split; [now rewrite <- app_assoc|]. split; [rewrite app_length; cbn; lia|]. split.
      * intros i [<-|I] K; apply in_or_app; [right; now left|left; auto].
      * apply Forall_app. split; [eapply Forall_impl; [|exact Hp]; cbn; tauto|]. constructor; [cbn; auto|constructor].
Qed.

Lemma loop_ends A B W L tol : (forall i n, inside A B W i n -> kept tol i -> (n < L)%nat) ->
  forall fuel t stack ns, Forall2 (inside A B W) stack ns -> Forall (kept tol) stack -> (weight L ns <= fuel)%nat -> quad_loop f fuel tol t stack <> None.
Proof.
  intros Hs. induction fuel as [|fuel IH]; intros t stack ns H2 Hk Hw.
  - destruct H2 as [|i n stack ns Hi H2]; [discriminate|]. cbn [weight] in Hw. pose proof (Nat.pow_nonzero 4 (L - n)%nat). lia.
  - destruct H2 as [|i n stack ns Hi H2]; [discriminate|]. cbn [quad_loop]. inversion Hk as [|? ? Hki Hks]; subst.
    pose proof (Hs i n Hi Hki) as HnL. pose proof (split_inside A B W i n Hi) as Hsp.
    destruct (process_kept tol (split3 f i) t stack) as (t' & pushed & E & Hl & _ & Hp). rewrite E.
    apply (IH t' (pushed ++ stack) (repeat (S n) (length pushed) ++ ns)).
    + apply Forall2_app; [|exact H2]. clear - Hp Hsp. rewrite Forall_forall in Hsp. induction Hp as [|j l [Hj _] Hp IHp]; cbn; constructor; auto.
    + apply Forall_app. split; [|exact Hks]. eapply Forall_impl; [|exact Hp]. cbn. tauto.
    + rewrite weight_app, weight_repeat. cbn [weight] in Hw. cbn [split3 length] in Hl.
      assert (Hpow : (4 ^ (L - n) = 4 * 4 ^ (L - S n))%nat) by (replace (L - n)%nat with (S (L - S n)) by lia; reflexivity).
      pose proof (Nat.pow_nonzero 4 (L - S n)%nat).
      assert ((length pushed * 4 ^ (L - S n) <= 3 * 4 ^ (L - S n))%nat) by (apply Nat.mul_le_mono_r; exact Hl). lia.
Qed.

Lemma estimates_close a b M : a < b -> (forall x, a <= x <= b -> Rabs (f x) <= M) ->
  Rabs (value (evaluate f a b (f a) (f b)) - est2 (evaluate f a b (f a) (f b))) <= 2 * (b - a) * M.
Proof.
  intros H Q. rewrite value_seven, value_four. unfold seven_point, four_point. cbv zeta.
  assert (S5 : sqrt 5 <> 0) by (apply Rgt_not_eq, sqrt_lt_R0; lra).
  assert (A : 0 <= sqrt (2 / 3) <= 1) by (pose proof alpha_sq as E; unfold alpha in E; assert (0 <= sqrt (2 / 3)) by apply sqrt_pos; split; [assumption|]; nra).
  pose proof beta_range as B. unfold beta in B. replace ((b - a) / 2 / sqrt 5) with (1 / sqrt 5 * ((b - a) / 2)) by (field; assumption).
  assert (P : forall s, -1 <= s <= 1 -> - M <= f ((a + b) / 2 + s * ((b - a) / 2)) <= M).
  { intros s Hs. assert (X : Rabs (f ((a + b) / 2 + s * ((b - a) / 2))) <= M) by (apply Q; assert (0 <= (b - a) / 2) by lra; split; nra).
    apply Rabs_def2 in X || (pose proof (Rle_abs (f ((a + b) / 2 + s * ((b - a) / 2)))); pose proof (Rle_abs (- f ((a + b) / 2 + s * ((b - a) / 2)))) as Y; rewrite Rabs_Ropp in Y; lra). }
  pose proof (P (sqrt (2 / 3)) ltac:(lra)) as P0. pose proof (P (- sqrt (2 / 3)) ltac:(lra)) as P1. pose proof (P (1 / sqrt 5) ltac:(lra)) as P3. pose proof (P (- (1 / sqrt 5)) ltac:(lra)) as P2.
  replace ((a + b) / 2 + - sqrt (2 / 3) * ((b - a) / 2)) with ((a + b) / 2 - sqrt (2 / 3) * ((b - a) / 2)) in P1 by ring.
  replace ((a + b) / 2 + - (1 / sqrt 5) * ((b - a) / 2)) with ((a + b) / 2 - 1 / sqrt 5 * ((b - a) / 2)) in P2 by ring.
  pose proof (P (-1) ltac:(lra)) as Pa. replace ((a + b) / 2 + -1 * ((b - a) / 2)) with a in Pa by field.
  pose proof (P 1 ltac:(lra)) as Pb. replace ((a + b) / 2 + 1 * ((b - a) / 2)) with b in Pb by field.
  pose proof (P 0 ltac:(lra)) as Pm. replace ((a + b) / 2 + 0 * ((b - a) / 2)) with ((a + b) / 2) in Pm by ring.
  revert P0 P1 P2 P3 Pa Pb Pm.
  generalize (f ((a + b) / 2 + sqrt (2 / 3) * ((b - a) / 2))) as u0, (f ((a + b) / 2 - sqrt (2 / 3) * ((b - a) / 2))) as u1,
    (f ((a + b) / 2 - 1 / sqrt 5 * ((b - a) / 2))) as u2, (f ((a + b) / 2 + 1 / sqrt 5 * ((b - a) / 2))) as u3, (f a) as ua, (f b) as ub, (f ((a + b) / 2)) as um. intros.
  match goal with |- Rabs ?z <= _ => replace z with ((b - a) / 2 * ((77 * (ua + ub) + 432 * (u1 + u0) + 625 * (u2 + u3) + 672 * um) / 1470 - (ua + ub + 5 * (u2 + u3)) / 6)) by field end.
  rewrite Rabs_mult, (Rabs_right ((b - a) / 2)) by lra. replace (2 * (b - a) * M) with ((b - a) / 2 * (4 * M)) by field.
  apply Rmult_le_compat_l; [lra|]. apply Rabs_le. split; lra.
Qed.

(** A level after which no piece is split again. *)
Lemma level A B W d M tol : 0 < tol -> 0 < d -> 0 <= W -> (forall x, A <= x <= B -> Rabs x < d -> Rabs (f x) <= M) ->
  exists L, forall i n, inside A B W i n -> kept tol i -> (n < L)%nat.
Proof.
  intros Ht Hd HW Q. pose proof eps_pos as He. set (M' := Rabs M + 1). assert (HM : 0 < M') by (unfold M'; pose proof (Rabs_pos M); lra).
  set (c := Rmin (d / 2) (Rmin (32 * epsilon * (d / 2)) (tol / (2 * M')))).
  assert (Hc : 0 < c). { unfold c. repeat apply Rmin_glb_lt; try lra; [apply Rmult_lt_0_compat; lra|apply Rdiv_lt_0_compat; lra]. }
  assert (C1 : c <= d / 2) by apply Rmin_l. assert (C2 : c <= 32 * epsilon * (d / 2)) by (eapply Rle_trans; [apply Rmin_r|apply Rmin_l]).
  assert (C3 : c <= tol / (2 * M')) by (eapply Rle_trans; [apply Rmin_r|apply Rmin_r]). clearbody c.
  destruct (level_exists (c / (32 * epsilon)) W ltac:(apply Rdiv_lt_0_compat; lra)) as (L & HL).
  replace (32 * epsilon * (c / (32 * epsilon))) with c in HL by (field; lra). exists L.
  intros i n (Hw & Hlt & G & Ha & Hb) [K1 K2]. destruct (le_lt_dec L n) as [Hle|]; [exfalso|assumption].
  pose proof beta_range as [B1 B2].
  assert (Hpow : beta ^ n <= beta ^ L).
  { replace n with (L + (n - L))%nat by lia. rewrite pow_add. rewrite <- (Rmult_1_r (beta ^ L)) at 2. apply Rmult_le_compat_l; [apply pow_le; lra|].
    rewrite <- (pow1 (n - L)). apply pow_incr. lra. }
  assert (Wn : ib i - ia i <= c) by (assert (W * beta ^ n <= W * beta ^ L) by (apply Rmult_le_compat_l; lra); lra).
  destruct (Rlt_dec (- (d / 2)) (ib i)) as [X1|X1]; [destruct (Rlt_dec (ia i) (d / 2)) as [X2|X2]|].
  - (* near zero: bounded *)
    assert (Y : Rabs (value i - est2 i) <= 2 * (ib i - ia i) * M).
    { unfold genuine in G. rewrite G at 1 2. apply estimates_close; [exact Hlt|]. intros x Hx. apply Q; [lra|]. apply Rabs_def1; lra. }
    assert (MM : M <= M') by (unfold M'; pose proof (Rle_abs M); lra).
    assert (2 * (ib i - ia i) * M <= 2 * c * M') by (apply Rle_trans with (2 * (ib i - ia i) * M'); [apply Rmult_le_compat_l; lra|apply Rmult_le_compat_r; lra]).
    assert (2 * c * M' <= tol). { apply Rle_trans with (2 * (tol / (2 * M')) * M'); [apply Rmult_le_compat_r; lra|]. right. field. lra. }
    unfold badness in K1. lra.
  - unfold can_subdivide in K2. destruct (Rlt_dec _ _) as [K|]; [|discriminate].
    assert (d / 2 <= Rmax (Rabs (ia i)) (Rabs (ib i))) by (eapply Rle_trans; [|apply Rmax_l]; rewrite Rabs_right; lra).
    assert (32 * epsilon * (d / 2) <= 32 * epsilon * Rmax (Rabs (ia i)) (Rabs (ib i))) by (apply Rmult_le_compat_l; lra). lra.
  - unfold can_subdivide in K2. destruct (Rlt_dec _ _) as [K|]; [|discriminate].
    assert (d / 2 <= Rmax (Rabs (ia i)) (Rabs (ib i))) by (eapply Rle_trans; [|apply Rmax_r]; rewrite Rabs_left1; lra).
    assert (32 * epsilon * (d / 2) <= 32 * epsilon * Rmax (Rabs (ia i)) (Rabs (ib i))) by (apply Rmult_le_compat_l; lra). lra.
Qed.

Lemma ordered_ends a b tol : a < b -> (exists d M, 0 < d /\ forall x, a <= x <= b -> Rabs x < d -> Rabs (f x) <= M) ->
  exists N, forall fuel, (N <= fuel)%nat -> integrate f fuel a b tol no_options <> None.
Proof.
  intros Hab (d & M & Hd & Q). unfold integrate. destruct (Rlt_dec tol epsilon) as [|Htol]; [exists O; discriminate|].
  destruct (Rlt_dec b a); [lra|]. cbv zeta. cbn [no_options ofa ofb].
  destruct (negb _) eqn:Ec; [exists O; discriminate|]. apply negb_false_iff in Ec.
  set (is1 := kronrod13 f a b (f a) (f b)). set (R0 := if Req_EM_T _ 0 then 1 else _). set (Rin := if Rlt_dec 0 R0 then _ else _).
  set (T := _ * Rabs _). destruct (Rle_dec _ _) as [|Hb]; [exists O; discriminate|].
  assert (HT : 0 < T).
  { pose proof eps_pos. unfold T. apply Rmult_lt_0_compat.
    + unfold Rin. destruct (Rlt_dec 0 R0); [destruct (Rlt_dec R0 1)|]; try lra. apply Rdiv_lt_0_compat; lra.
    + apply Rabs_pos_lt. destruct (Req_EM_T is1 0); lra. }
  destruct (level a b (b - a) d M T HT Hd ltac:(lra) Q) as (L & HL). exists (weight L [0%nat]). intros fuel Hf.
  pose proof (loop_ends a b (b - a) L T HL fuel (Totals 0 0 0 false) [evaluate f a b (f a) (f b)] [0%nat]) as LT.
  destruct (quad_loop _ _ _ _ _); [discriminate|]. exfalso. apply LT; trivial.
  - constructor; [|constructor]. unfold inside. cbn [evaluate ia ib pow]. split; [lra|]. split; [exact Hab|]. split; [reflexivity|]. split; lra.
  - constructor; [|constructor]. split; [lra|exact Ec].
Qed.
End Term.

(** Every integration finishes, for every tolerance and every integrand that is bounded near zero: all bounded integrands, and any integrand
    at all if zero is away from the interval. *)
Theorem c19_terminates : forall f a b tol opt, given f opt (Rmin a b) (Rmax a b) -> tame_at_zero f a b ->
  exists N, forall fuel, (N <= fuel)%nat -> exists r, integrate f fuel a b tol opt = Some r.
Proof.
  intros f a b tol opt Hg (d & M & Hd & Q).
  assert (Hall : exists N, forall fuel, (N <= fuel)%nat -> integrate f fuel a b tol no_options <> None).
  { destruct (Rtotal_order a b) as [H|[->|H]].
    - rewrite Rmin_left, Rmax_right in Q by lra. apply ordered_ends; [exact H|eauto].
    - exists 0%nat. intros fuel _. unfold integrate. destruct (Rlt_dec tol epsilon); [discriminate|]. destruct (Rlt_dec b b); [lra|]. cbv zeta. rewrite narrow. discriminate.
    - rewrite Rmin_right, Rmax_left in Q by lra. destruct (ordered_ends f b a tol H ltac:(eauto)) as (N & HN). exists N. intros fuel Hf E. apply (HN fuel Hf).
      rewrite integrate_swap, E. reflexivity. }
  destruct Hall as (N & HN). exists N. intros fuel Hf. rewrite integrate_given by exact Hg. specialize (HN fuel Hf).
  destruct (integrate f fuel a b tol no_options) as [r|]; [now exists r|now exfalso].
Qed.
Print Assumptions c19_terminates.

(** The condition in the usual cases. *)
Lemma tame_bounded f a b M : (forall x, Rmin a b <= x <= Rmax a b -> Rabs (f x) <= M) -> tame_at_zero f a b.
Proof. intros H. exists 1, M. split; [lra|]. intros x Hx _. auto. Qed.
Lemma tame_away f a b : (0 < a /\ 0 < b \/ a < 0 /\ b < 0) -> tame_at_zero f a b.
Proof.
  intros H. exists (Rmin (Rabs a) (Rabs b)), 0. split; [apply Rmin_glb_lt; apply Rabs_pos_lt; lra|].
  intros x Hx L. exfalso. revert Hx L. unfold Rmin, Rmax, Rabs. repeat destruct (Rle_dec _ _); repeat destruct (Rcase_abs _); lra.
Qed.
Example c19_terminates_case : tame_at_zero (fun x => Rabs x) (-2) 1 /\ tame_at_zero (fun x => / x) 1 2.
Proof.
  split; [|apply tame_away; lra]. apply (tame_bounded _ _ _ 2). intros x. rewrite Rmin_left, Rmax_right by lra. intros Hx.
  rewrite Rabs_Rabsolu. apply Rabs_le. lra.
Qed.

(** The check on the width compares it with the size of the ends, so it never stops the piece that begins at zero: over the reals an
    integrand that grows without bound there is split for ever (with doubles, until the width underflows). *)
Definition steep (x : R) : R := if Rle_dec x 0 then 0 else 1 / (x * x).
Lemma steep_pair w s q : 0 < w -> s * s = q -> q < 1 -> -1 < s < 1 ->
  steep ((0 + w) / 2 - s * ((w - 0) / 2)) + steep ((0 + w) / 2 + s * ((w - 0) / 2)) = 8 * (1 + q) / ((1 - q) * (1 - q)) / (w * w).
Proof.
  intros Hw E Hq Hs. unfold steep.
  assert (L1 : 0 < (0 + w) / 2 - s * ((w - 0) / 2)) by nra. assert (L2 : 0 < (0 + w) / 2 + s * ((w - 0) / 2)) by nra.
  destruct (Rle_dec _ _); [lra|]. destruct (Rle_dec _ _); [lra|].
  replace ((0 + w) / 2 - s * ((w - 0) / 2)) with (w * (1 - s) / 2) by field. replace ((0 + w) / 2 + s * ((w - 0) / 2)) with (w * (1 + s) / 2) by field.
  rewrite <- E. field. repeat split; try nra. 
Qed.
Lemma steep_at w : 0 < w -> steep w = 1 / (w * w).
Proof. intros H. unfold steep. destruct (Rle_dec w 0); [lra|reflexivity]. Qed.
Lemma sb5 : 1 / sqrt 5 * (1 / sqrt 5) = 1 / 5.
Proof. pose proof beta_sq as B. unfold beta in B. lra. Qed.
Lemma steep_estimates w : 0 < w -> seven_point steep 0 w = 63980 / 2940 / w /\ four_point steep 0 w = 76 / 12 / w.
Proof.
  intros Hw. unfold seven_point, four_point. cbv zeta.
  assert (S5 : sqrt 5 <> 0) by (apply Rgt_not_eq, sqrt_lt_R0; lra).
  replace ((w - 0) / 2 / sqrt 5) with (1 / sqrt 5 * ((w - 0) / 2)) by (field; assumption).
  pose proof beta_range as B. unfold beta in B. pose proof alpha_sq as A. unfold alpha in A.
  assert (A' : 0 <= sqrt (2 / 3) < 1) by (assert (0 <= sqrt (2 / 3)) by apply sqrt_pos; split; [assumption|]; nra).
  rewrite (steep_pair w (sqrt (2 / 3)) (2 / 3)), (steep_pair w (1 / sqrt 5) (1 / 5)) by (try exact sb5; try exact A; lra).
  rewrite (steep_at w Hw). replace (steep 0) with 0 by (unfold steep; destruct (Rle_dec 0 0); lra).
  replace ((0 + w) / 2) with (w / 2) by field. rewrite (steep_at (w / 2)) by lra.
  split; field; lra.
Qed.
Lemma steep_kept w T : 0 < w -> w <= 1 -> T < 15 -> kept T (evaluate steep 0 w (steep 0) (steep w)).
Proof.
  intros Hw L HT. destruct (steep_estimates w Hw) as [E7 E4]. split.
  - unfold badness. rewrite value_seven, value_four, E7, E4.
    replace (63980 / 2940 / w - 76 / 12 / w) with ((63980 / 2940 - 76 / 12) * / w) by (field; lra).
    assert (1 <= / w) by (rewrite <- Rinv_1; apply Rinv_le_contravar; lra).
    rewrite Rabs_right by nra. nra.
  - unfold can_subdivide. cbn [evaluate ia ib]. rewrite Rabs_R0, (Rabs_right w), Rmax_right by lra. destruct (Rlt_dec _ _) as [|N]; [reflexivity|].
    exfalso. apply N. unfold epsilon. replace (w - 0) with (1 * w) by ring. apply Rmult_lt_compat_r; [exact Hw|]. 
    assert (32 < 2 ^ 52) by (cbn [pow]; lra). apply (Rmult_lt_reg_r (2 ^ 52)); [lra|]. rewrite Rmult_assoc, Rinv_l by lra. lra.
Qed.
Lemma steep_never T : T < 15 -> forall fuel t stack, (exists w, 0 < w <= 1 /\ In (evaluate steep 0 w (steep 0) (steep w)) stack) -> quad_loop steep fuel T t stack = None.
Proof.
  intros HT. induction fuel as [|fuel IH]; intros t stack (w & Hw & I); (destruct stack as [|i rest]; [destruct I|]); cbn [quad_loop]; [reflexivity|].
  destruct (process_kept steep T (split3 steep i) t rest) as (t' & pushed & E & _ & Hk & _). rewrite E. apply IH.
  destruct I as [->|I].
  - set (w' := pt 0 w 4). assert (W' : 0 < w' <= 1) by (pose proof (pt_order 0 w ltac:(lra)); unfold w'; lra).
    exists w'. split; [exact W'|]. apply in_or_app. left. apply Hk; [|apply steep_kept; lra]. left. reflexivity.
  - exists w. split; [exact Hw|]. apply in_or_app. now right.
Qed.
Lemma steep_13 : Rabs (kronrod13 steep 0 1 (steep 0) (steep 1) - 73) <= 1.
Proof.
  rewrite kronrod_local. unfold K13.
  assert (P : forall s q, s * s = q -> q < 1 -> -1 < s < 1 -> steep ((0 + 1) / 2 + s * ((1 - 0) / 2)) + steep ((0 + 1) / 2 + - s * ((1 - 0) / 2)) = 8 * (1 + q) / ((1 - q) * (1 - q))).
  { intros s q E Hq Hs. pose proof (steep_pair 1 s q ltac:(lra) E Hq Hs) as X.
    replace ((0 + 1) / 2 + - s * ((1 - 0) / 2)) with ((0 + 1) / 2 - s * ((1 - 0) / 2)) by ring. rewrite Rplus_comm, X. field. nra. }
  rewrite (P x1 (x1 * x1)), (P x2 (x2 * x2)), (P x3 (x3 * x3)) by (unfold x1, x2, x3; lra).
  assert (A' : 0 <= alpha < 1) by (pose proof alpha_sq; assert (0 <= alpha) by apply sqrt_pos; split; [assumption|]; nra). pose proof beta_range as B.
  rewrite (P alpha (2 / 3)), (P beta (1 / 5)) by (try exact alpha_sq; try exact beta_sq; lra).
  replace ((0 + 1) / 2 + 1 * ((1 - 0) / 2)) with 1 by field. replace ((0 + 1) / 2 + -1 * ((1 - 0) / 2)) with 0 by field.
  replace ((0 + 1) / 2 + 0 * ((1 - 0) / 2)) with (1 / 2) by field.
  replace (steep 0) with 0 by (unfold steep; destruct (Rle_dec 0 0); lra). rewrite !steep_at by lra.
  unfold x1, x2, x3. apply Rabs_le. lra.
Qed.
Theorem c19_unbounded_refuted : exists f a b tol, / 2 ^ 52 <= tol /\ a < b /\ (forall x, a <= x <= b -> 0 <= f x) /\
  forall fuel, integrate f fuel a b tol (Options None None) = None.
Proof.
  exists steep, 0, 1, (1 / 1000). split; [cbn [pow]; apply (Rmult_le_reg_r 4503599627370496); lra|]. split; [lra|].
  split; [intros x _; unfold steep; destruct (Rle_dec x 0); [lra|]; apply Rlt_le, Rdiv_lt_0_compat; [lra|]; apply Rmult_lt_0_compat; lra|].
  intros fuel. unfold integrate. destruct (Rlt_dec (1 / 1000) epsilon) as [N|_].
  { exfalso. unfold epsilon in N. assert (/ 2 ^ 52 <= / 1000) by (apply Rinv_le_contravar; [lra|cbn [pow]; lra]). lra. }
  destruct (Rlt_dec 1 0); [lra|]. cbv zeta. cbn [ofa ofb].
  assert (K0 : forall T, T < 15 -> kept T (evaluate steep 0 1 (steep 0) (steep 1))) by (intros T HT; apply steep_kept; lra).
  rewrite (proj2 (K0 0 ltac:(lra))). cbn [negb].
  destruct (steep_estimates 1 ltac:(lra)) as [E7 E4].
  assert (V7 : value (evaluate steep 0 1 (steep 0) (steep 1)) = 63980 / 2940) by (rewrite value_seven, E7; field).
  assert (V4 : est2 (evaluate steep 0 1 (steep 0) (steep 1)) = 76 / 12) by (rewrite value_four, E4; field).
  rewrite V7, V4. pose proof steep_13 as K. set (k := kronrod13 steep 0 1 (steep 0) (steep 1)) in *. clearbody k.
  assert (Kr : 72 <= k <= 74) by (pose proof (Rle_abs (k - 73)); pose proof (Rle_abs (- (k - 73))) as Y; rewrite Rabs_Ropp in Y; lra).
  rewrite (Rabs_left (63980 / 2940 - k)), (Rabs_left (76 / 12 - k)) by lra.
  destruct (Req_EM_T (- (76 / 12 - k)) 0); [lra|].
  set (q := - (63980 / 2940 - k) / - (76 / 12 - k)).
  assert (Q : 1 / 2 < q < 1).
  { unfold q. split; apply (Rmult_lt_reg_r (- (76 / 12 - k))); try lra; unfold Rdiv; rewrite ?Rmult_assoc, Rinv_l, ?Rmult_1_r by lra; lra. }
  destruct (Rlt_dec 0 q); [|lra]. destruct (Rlt_dec q 1); [|lra]. destruct (Req_EM_T k 0); [lra|]. rewrite (Rabs_right k) by lra.
  set (T := 1 / 1000 / q * k).
  assert (HT : T < 15).
  { unfold T. assert (1 / 1000 / q < 1 / 500). { apply (Rmult_lt_reg_r q); [lra|]. unfold Rdiv at 1. rewrite Rmult_assoc, Rinv_l by lra. lra. } nra. }
  destruct (Rle_dec _ _) as [N|_]; [exfalso; destruct (K0 T HT); lra|].
  rewrite (steep_never T HT fuel (Totals 0 0 0 false) [evaluate steep 0 1 (steep 0) (steep 1)]); [reflexivity|].
  exists 1. split; [lra|now left].
Qed.
Print Assumptions c19_unbounded_refuted.
