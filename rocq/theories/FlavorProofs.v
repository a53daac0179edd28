(** Facts on mixing matrices, projectors and traces. *)
From Coq Require Import Reals List Arith Bool Lia Lra Ring.
From Verif Require Import CMatrix FlavorModel.
Import ListNotations.
Open Scope R_scope.

(** ** Rotations are unitary *)
Lemma csum_two n i j f : (i < n)%nat -> (j < n)%nat -> i <> j ->
  (forall k, (k < n)%nat -> k <> i -> k <> j -> f k = c0) -> csum n f = (f i + f j)%C.
Proof.
  intros Hi Hj N H.
  rewrite (csum_ext n f (fun k => ((if Nat.eqb k i then f k else c0) + (if Nat.eqb k i then c0 else f k))%C)).
  2:{ intros k _. destruct (Nat.eqb k i); ring. }
  rewrite csum_plus. f_equal.
  - rewrite (csum_single n i); [rewrite Nat.eqb_refl; reflexivity|exact Hi|].
    intros k _ K. rewrite (proj2 (Nat.eqb_neq k i) K). reflexivity.
  - rewrite (csum_single n j); [|exact Hj|].
    + rewrite (proj2 (Nat.eqb_neq j i)); [reflexivity|congruence].
    + intros k Hk K. destruct (Nat.eqb k i) eqn:E; [reflexivity|]. apply Nat.eqb_neq in E. apply H; assumption.
Qed.

Lemma delta_ne a b : a <> b -> delta a b = c0.
Proof. intro H. unfold delta. rewrite (proj2 (Nat.eqb_neq a b) H). reflexivity. Qed.
Lemma delta_eq a : delta a a = c1.
Proof. unfold delta. rewrite Nat.eqb_refl. reflexivity. Qed.

Section Rot.
Variables (n i j : nat).
Hypothesis Hi : (i < n)%nat.
Hypothesis Hj : (j < n)%nat.
Hypothesis N : i <> j.

Lemma rot_ii th dl : rot i j th dl i i = rtc (cos th).
Proof. unfold rot. rewrite Nat.eqb_refl. reflexivity. Qed.
Lemma rot_ij th dl : rot i j th dl i j = cmult (rtc (sin th)) (cexp (- dl)).
Proof. unfold rot. rewrite !Nat.eqb_refl, (proj2 (Nat.eqb_neq j i)); auto. Qed.
Lemma rot_ji th dl : rot i j th dl j i = cmult (rtc (- sin th)) (cexp dl).
Proof. unfold rot. rewrite !Nat.eqb_refl, (proj2 (Nat.eqb_neq j i)); auto. Qed.
Lemma rot_jj th dl : rot i j th dl j j = rtc (cos th).
Proof. unfold rot. rewrite !Nat.eqb_refl, (proj2 (Nat.eqb_neq j i)); auto. Qed.
Lemma rot_out_l th dl a b : a <> i -> a <> j -> rot i j th dl a b = delta a b.
Proof. intros A B. unfold rot. rewrite (proj2 (Nat.eqb_neq a i) A), (proj2 (Nat.eqb_neq a j) B). reflexivity. Qed.
Lemma rot_out_r th dl a b : b <> i -> b <> j -> rot i j th dl a b = delta a b.
Proof.
  intros A B. unfold rot. rewrite (proj2 (Nat.eqb_neq b i) A), (proj2 (Nat.eqb_neq b j) B).
  destruct (Nat.eqb a i), (Nat.eqb a j); reflexivity.
Qed.

Lemma rot_self th dl : meq n (mmult n (rot i j th dl) (dagger (rot i j th dl))) mid.
Proof.
  assert (Sq : (rtc (cos th) * rtc (cos th) + rtc (sin th) * rtc (sin th))%C = c1).
  { rewrite <- !rtc_mult, <- rtc_plus, <- rtc_1. f_equal. pose proof (sin2_cos2 th) as S. unfold Rsqr in S. lra. }
  assert (Ph : (cexp dl * cconj (cexp dl))%C = c1) by apply cexp_unit.
  assert (Phm : (cexp (- dl) * cconj (cexp (- dl)))%C = c1) by apply cexp_unit.
  assert (Cj : cconj (cexp dl) = cexp (- dl)) by apply cexp_conj.
  assert (Cm : cconj (cexp (- dl)) = cexp dl) by (rewrite cexp_conj, Ropp_involutive; reflexivity).
  assert (Two : forall a b, (a = i \/ a = j) ->
    mmult n (rot i j th dl) (dagger (rot i j th dl)) a b =
    (rot i j th dl a i * cconj (rot i j th dl b i) + rot i j th dl a j * cconj (rot i j th dl b j))%C).
  { intros a b A. unfold mmult, dagger. rewrite (csum_two n i j); auto.
    intros k _ K1 K2. rewrite (rot_out_r th dl a k K1 K2), delta_ne; [ring|]. destruct A; congruence. }
  assert (One : forall a b, (a < n)%nat -> a <> i -> a <> j ->
    mmult n (rot i j th dl) (dagger (rot i j th dl)) a b = cconj (rot i j th dl b a)).
  { intros a b L A1 A2. unfold mmult, dagger. rewrite (csum_single n a); [|exact L|].
    - rewrite rot_out_l, delta_eq by assumption. ring.
    - intros k _ K. rewrite rot_out_l, delta_ne by congruence. ring. }
  intros a b La Lb. unfold mid.
  destruct (Nat.eq_dec a i) as [->|Ai]; [|destruct (Nat.eq_dec a j) as [->|Aj]].
  - rewrite Two by auto. destruct (Nat.eq_dec b i) as [->|Bi]; [|destruct (Nat.eq_dec b j) as [->|Bj]].
    + rewrite delta_eq, rot_ii, rot_ij, conj_mult, !conj_rtc, Cm.
      rewrite <- Sq. replace (rtc (sin th) * rtc (sin th))%C with (rtc (sin th) * rtc (sin th) * c1)%C by ring.
      rewrite <- Phm, Cm. ring.
    + rewrite delta_ne by exact N. rewrite rot_ii, rot_ij, rot_ji, rot_jj, conj_mult, !conj_rtc, Cj, rtc_opp. ring.
    + rewrite (rot_out_l th dl b i Bi Bj), (rot_out_l th dl b j Bi Bj), !delta_ne, conj_0 by congruence. ring.
  - rewrite Two by auto. destruct (Nat.eq_dec b i) as [->|Bi]; [|destruct (Nat.eq_dec b j) as [->|Bj]].
    + rewrite delta_ne by congruence. rewrite rot_ii, rot_ij, rot_ji, rot_jj, conj_mult, !conj_rtc, Cm, rtc_opp. ring.
    + rewrite delta_eq, rot_jj, rot_ji, conj_mult, !conj_rtc, Cj, rtc_opp.
      rewrite <- Sq. replace (rtc (sin th) * rtc (sin th))%C with (rtc (sin th) * rtc (sin th) * c1)%C by ring.
      rewrite <- Ph, Cj. ring.
    + rewrite (rot_out_l th dl b i Bi Bj), (rot_out_l th dl b j Bi Bj), !delta_ne, conj_0 by congruence. ring.
  - rewrite One by assumption. rewrite rot_out_r by assumption. unfold delta.
    rewrite Nat.eqb_sym. destruct (Nat.eqb a b); [apply conj_1|apply conj_0].
Qed.

Lemma rot_dagger th dl : meq n (dagger (rot i j th dl)) (rot i j (- th) dl).
Proof.
  intros a b _ _. unfold dagger.
  destruct (Nat.eq_dec a i) as [->|Ai]; [|destruct (Nat.eq_dec a j) as [->|Aj]].
  - destruct (Nat.eq_dec b i) as [->|Bi]; [|destruct (Nat.eq_dec b j) as [->|Bj]].
    + rewrite !rot_ii, conj_rtc, cos_neg. reflexivity.
    + rewrite rot_ji, rot_ij, conj_mult, conj_rtc, cexp_conj, sin_neg. reflexivity.
    + rewrite rot_out_l, rot_out_r, !delta_ne, conj_0 by congruence. reflexivity.
  - destruct (Nat.eq_dec b i) as [->|Bi]; [|destruct (Nat.eq_dec b j) as [->|Bj]].
    + rewrite rot_ji, rot_ij, conj_mult, conj_rtc, cexp_conj, sin_neg, !Ropp_involutive. reflexivity.
    + rewrite !rot_jj, conj_rtc, cos_neg. reflexivity.
    + rewrite rot_out_l, rot_out_r, !delta_ne, conj_0 by congruence. reflexivity.
  - rewrite rot_out_r, rot_out_l by assumption. unfold delta.
    rewrite Nat.eqb_sym. destruct (Nat.eqb a b); [apply conj_1|apply conj_0].
Qed.

Lemma rot_unitary th dl : unitary n (rot i j th dl).
Proof.
  split; [apply rot_self|].
  eapply meq_trans; [|apply (rot_self (- th) dl)].
  apply mmult_meq; [apply rot_dagger|].
  eapply meq_trans; [apply meq_sym, dagger_dagger|]. apply dagger_meq, rot_dagger.
Qed.
End Rot.

(** pairs of two different flavours *)
Definition pairs_ok (n : nat) (order : list (nat * nat)) : Prop :=
  Forall (fun p => (fst p < n)%nat /\ (snd p < n)%nat /\ fst p <> snd p) order.

Lemma mixing_unitary n th dl order : pairs_ok n order -> unitary n (mixing n th dl order).
Proof.
  induction order as [|(i, j) l IH]; intro H; cbn [mixing]; [apply unitary_id|].
  inversion H as [|p q (A & B & D) F]; subst. apply unitary_mult; [|apply IH; exact F].
  apply rot_unitary; assumption.
Qed.

(** ** Projectors of an orthonormal frame *)
Definition outer (x : nat -> C) : mat := fun a b => cmult (x a) (cconj (x b)).
Definition frame (n : nat) (V : mat) (P : nat -> mat) : Prop :=
  forall k, (k < n)%nat -> meq n (P k) (outer (fun a => V a k)).
Definition inner (n : nat) (x y : nat -> C) : C := csum n (fun a => cmult (cconj (x a)) (y a)).

Lemma col_dot n V k j : unitary n V -> (k < n)%nat -> (j < n)%nat ->
  inner n (fun a => V a k) (fun a => V a j) = delta k j.
Proof. intros (_ & U) Hk Hj. exact (U k j Hk Hj). Qed.

Lemma rotated n V k : (k < n)%nat -> meq n (rotate_b1 n V (ket_proj k)) (outer (fun a => V a k)).
Proof.
  intros Hk a b Ha Hb. unfold rotate_b1, outer, ket_proj, mmult at 1, dagger.
  rewrite (csum_single n k); [|exact Hk|].
  - unfold mmult. rewrite (csum_single n k); [rewrite delta_eq; ring|exact Hk|].
    intros c _ N. rewrite (delta_ne c k N). ring.
  - intros c _ N. unfold mmult. rewrite csum_zero; [ring|]. intros d _. rewrite (delta_ne c k N). ring.
Qed.

Lemma frame_b1 n th dl order nt rho :
  frame n (mixing n th (fixed_phases nt rho dl) order) (b1_proj n th dl order nt rho).
Proof. intros k Hk. apply rotated. exact Hk. Qed.

Lemma frame_b0 n : frame n mid b0_proj.
Proof.
  intros k Hk a b _ _. unfold b0_proj, ket_proj, outer, mid. unfold delta at 4.
  destruct (Nat.eqb b k) eqn:E.
  - apply Nat.eqb_eq in E as ->. rewrite delta_eq, conj_1. reflexivity.
  - apply Nat.eqb_neq in E. rewrite (delta_ne b k E), conj_0. reflexivity.
Qed.

(** evolving with a diagonal hamiltonian turns the frame *)
Definition turned (H : mat) (t : R) (V : mat) : mat := fun a k => cmult (cexp (re (H a a) * t)) (V a k).

Lemma turned_unitary n H t V : unitary n V -> unitary n (turned H t V).
Proof.
  intros (A & B). split; intros i j Hi Hj.
  - unfold mmult, dagger, turned.
    rewrite (csum_ext n _ (fun k => (cexp (re (H i i) * t) * cconj (cexp (re (H j j) * t)) * (V i k * cconj (V j k)))%C)).
    2:{ intros k _. rewrite conj_mult. ring. }
    rewrite csum_mult_l. pose proof (A i j Hi Hj) as E. unfold mmult, dagger in E. rewrite E.
    unfold mid, delta. destruct (Nat.eqb i j) eqn:Q; [|ring]. apply Nat.eqb_eq in Q as ->.
    rewrite cexp_unit. ring.
  - rewrite <- (B i j Hi Hj). unfold mmult, dagger, turned. apply csum_ext. intros k _. rewrite conj_mult.
    replace (cconj (cexp (re (H k k) * t)) * cconj (V k i) * (cexp (re (H k k) * t) * V k j))%C with
      (cexp (re (H k k) * t) * cconj (cexp (re (H k k) * t)) * (cconj (V k i) * V k j))%C by ring.
    rewrite cexp_unit. ring.
Qed.

Lemma evolve_meq n H t A B : meq n A B -> meq n (evolve H t A) (evolve H t B).
Proof. intros E i j Hi Hj. unfold evolve. rewrite E by assumption. reflexivity. Qed.

Lemma evolve_outer n H t x : meq n (evolve H t (outer x)) (outer (fun a => cmult (cexp (re (H a a) * t)) (x a))).
Proof.
  intros a b _ _. unfold evolve, outer. rewrite conj_mult, cexp_conj.
  replace ((re (H a a) - re (H b b)) * t) with (re (H a a) * t + - (re (H b b) * t)) by ring.
  rewrite <- cexp_plus. ring.
Qed.

Lemma frame_evolve n H t V P : frame n V P -> frame n (turned H t V) (fun k => evolve H t (P k)).
Proof.
  intros F k Hk. eapply meq_trans; [apply evolve_meq, F, Hk|]. apply evolve_outer.
Qed.

Lemma trace_outer n x y : trace n (mmult n (outer x) (outer y)) = rtc (cnorm2 (inner n y x)).
Proof.
  rewrite <- mult_conj. unfold trace, mmult, outer, inner. rewrite csum_conj, <- csum_mult_r.
  apply csum_ext. intros a _. rewrite <- csum_mult_l. apply csum_ext. intros b _.
  rewrite conj_mult, conj_conj. ring.
Qed.

Lemma frame_prod n V P j k : unitary n V -> frame n V P -> (j < n)%nat -> (k < n)%nat ->
  meq n (mmult n (P k) (P j)) (if Nat.eqb k j then P k else mzero).
Proof.
  intros U F Hj Hk. eapply meq_trans; [apply mmult_meq; apply F; assumption|].
  intros a b Ha Hb. unfold mmult, outer.
  rewrite (csum_ext n _ (fun c => (V a k * cconj (V b j) * (cconj (V c k) * V c j))%C)) by (intros; ring).
  rewrite csum_mult_l. pose proof (col_dot n V k j U Hk Hj) as D. unfold inner in D. rewrite D.
  unfold delta. destruct (Nat.eqb k j) eqn:E.
  - apply Nat.eqb_eq in E as ->. rewrite (F j Hj a b Ha Hb). unfold outer. ring.
  - unfold mzero. ring.
Qed.

Lemma frame_trace n V P j k : unitary n V -> frame n V P -> (j < n)%nat -> (k < n)%nat ->
  trace n (mmult n (P k) (P j)) = delta k j.
Proof.
  intros U F Hj Hk. rewrite (trace_meq n _ _ (mmult_meq n _ _ _ _ (F k Hk) (F j Hj))), trace_outer.
  rewrite (col_dot n V j k U Hj Hk). unfold delta. rewrite Nat.eqb_sym.
  destruct (Nat.eqb k j); unfold cnorm2; cbn; apply Ceq; cbn; ring.
Qed.

Lemma frame_sum n V P : unitary n V -> frame n V P -> meq n (msum n P) mid.
Proof.
  intros (U & _) F i j Hi Hj. rewrite msum_at, <- (U i j Hi Hj). unfold mmult, dagger.
  apply csum_ext. intros k Hk. apply (F k Hk i j Hi Hj).
Qed.

Lemma expect_msum n m f rho : expect n (msum m f) rho = rsum m (fun k => expect n (f k) rho).
Proof.
  unfold expect. rewrite (trace_meq n _ _ (mmult_msum_l n m f rho)), trace_msum, csum_re. reflexivity.
Qed.

Lemma expect_meq n A B rho sigma : meq n A B -> meq n rho sigma -> expect n A rho = expect n B sigma.
Proof. intros H1 H2. unfold expect. rewrite (trace_meq n _ _ (mmult_meq n _ _ _ _ H1 H2)). reflexivity. Qed.

(** the contents of all flavours add up to the trace *)
Lemma frame_total n V P rho : unitary n V -> frame n V P ->
  rsum n (fun k => expect n (P k) rho) = re (trace n rho).
Proof.
  intros U F. rewrite <- expect_msum. unfold expect. f_equal. apply trace_meq.
  eapply meq_trans; [apply mmult_meq; [apply (frame_sum n V); assumption|apply meq_refl]|]. apply mmult_id_l.
Qed.

Lemma ini_content n V P W Q v k : unitary n V -> frame n V P -> unitary n W -> frame n W Q -> (k < n)%nat ->
  expect n (P k) (msum n (fun j => mscale (v j) (Q j))) =
  rsum n (fun j => v j * cnorm2 (inner n (fun a => W a j) (fun a => V a k))).
Proof.
  intros U F U' F' Hk. unfold expect.
  rewrite (trace_meq n _ _ (mmult_msum_r n n _ (P k))), trace_msum, csum_re. apply rsum_ext. intros j Hj.
  rewrite (trace_meq n _ _ (mmult_scale_r n (v j) (Q j) (P k))), trace_scale.
  rewrite (trace_meq n _ _ (mmult_meq n _ _ _ _ (F k Hk) (F' j Hj))), trace_outer. cbn. ring.
Qed.

Lemma ini_trace n W Q v : unitary n W -> frame n W Q ->
  re (trace n (msum n (fun j => mscale (v j) (Q j)))) = rsum n v.
Proof.
  intros U F. rewrite trace_msum, csum_re. apply rsum_ext. intros j Hj. rewrite trace_scale.
  rewrite (trace_meq n _ _ (F j Hj)).
  assert (E : trace n (outer (fun a => W a j)) = c1).
  { unfold trace, outer. rewrite <- (delta_eq j), <- (col_dot n W j j U Hj Hj). unfold inner.
    apply csum_ext. intros. ring. }
  rewrite E. cbn. ring.
Qed.

Lemma rsum_delta n v k : (k < n)%nat -> rsum n (fun j => v j * cnorm2 (delta j k)) = v k.
Proof.
  intro L. induction n as [|n IH]; [lia|]. cbn [rsum]. destruct (Nat.eq_dec k n) as [->|N].
  - rewrite delta_eq. assert (Z : rsum n (fun j => v j * cnorm2 (delta j n)) = 0).
    { clear. set (m := n) at 1. assert (m <= n)%nat as M by (unfold m; lia). clearbody m.
      induction m as [|m IH]; cbn [rsum]; [reflexivity|]. rewrite IH, (delta_ne m n) by lia. unfold cnorm2. cbn. ring. }
    rewrite Z. unfold cnorm2. cbn. ring.
  - rewrite IH, (delta_ne n k) by lia. unfold cnorm2. cbn. ring.
Qed.

(** ** Traces of the terms of the equation *)
Lemma coherent_trace n H rho : trace n (coherent n H rho) = c0.
Proof.
  unfold coherent, trace, cminus. rewrite csum_mult_l.
  rewrite csum_plus.
  assert (E : csum n (fun i => copp (mmult n rho H i i)) = copp (trace n (mmult n rho H))).
  { unfold trace. induction n as [|n IH]; [cbn; apply Ceq; cbn; ring|].
    generalize (mmult (S n) rho H). intro M. clear. induction (S n) as [|m IH]; [apply Ceq; cbn; ring|].
    cbn [csum]. rewrite IH. ring. }
  rewrite E. change (csum n (fun i => mmult n H rho i i)) with (trace n (mmult n H rho)).
  rewrite trace_cycle. ring.
Qed.

Lemma frame_both n V P G rho c k : unitary n V -> frame n V P -> (k < n)%nat ->
  meq n G (msum n (fun j => mscale (c j) (P j))) ->
  trace n (mmult n (P k) (mmult n G rho)) = (rtc (c k) * trace n (mmult n (P k) rho))%C /\
  trace n (mmult n (P k) (mmult n rho G)) = (rtc (c k) * trace n (mmult n (P k) rho))%C.
Proof.
  intros U F Hk HG.
  assert (PG : meq n (mmult n (P k) G) (mscale (c k) (P k))).
  { eapply meq_trans; [apply mmult_meq; [apply meq_refl|exact HG]|].
    eapply meq_trans; [apply mmult_msum_r|]. intros a b Ha Hb. rewrite msum_at.
    rewrite (csum_single n k); [|exact Hk|].
    - rewrite (mmult_scale_r n (c k) (P k) (P k) a b Ha Hb). unfold mscale at 1.
      rewrite (frame_prod n V P k k U F Hk Hk a b Ha Hb), Nat.eqb_refl. reflexivity.
    - intros j Hj N. rewrite (mmult_scale_r n (c j) (P j) (P k) a b Ha Hb). unfold mscale.
      rewrite (frame_prod n V P j k U F Hj Hk a b Ha Hb), (proj2 (Nat.eqb_neq k j)) by congruence. unfold mzero. ring. }
  assert (GP : meq n (mmult n G (P k)) (mscale (c k) (P k))).
  { eapply meq_trans; [apply mmult_meq; [exact HG|apply meq_refl]|].
    eapply meq_trans; [apply mmult_msum_l|]. intros a b Ha Hb. rewrite msum_at.
    rewrite (csum_single n k); [|exact Hk|].
    - rewrite (mmult_scale_l n (c k) (P k) (P k) a b Ha Hb). unfold mscale at 1.
      rewrite (frame_prod n V P k k U F Hk Hk a b Ha Hb), Nat.eqb_refl. reflexivity.
    - intros j Hj N. rewrite (mmult_scale_l n (c j) (P j) (P k) a b Ha Hb). unfold mscale.
      rewrite (frame_prod n V P k j U F Hk Hj a b Ha Hb), (proj2 (Nat.eqb_neq j k)) by congruence. unfold mzero. ring. }
  split.
  - rewrite <- trace_scale. apply trace_meq. eapply meq_trans; [apply meq_sym, mmult_assoc|].
    eapply meq_trans; [apply mmult_meq; [exact PG|apply meq_refl]|]. apply mmult_scale_l.
  - rewrite trace_cycle. rewrite (trace_meq n _ _ (mmult_assoc n rho G (P k))).
    rewrite (trace_meq n _ _ (mmult_meq n _ _ _ _ (meq_refl n rho) GP)).
    rewrite (trace_meq n _ _ (mmult_scale_r n _ _ _)), trace_scale, trace_cycle. reflexivity.
Qed.

Lemma anti_expect n V P G rho invlen k : unitary n V -> frame n V P -> (k < n)%nat ->
  meq n G (msum n (fun j => mscale (invlen j) (P j))) ->
  expect n (P k) (anti n G rho) = 2 * invlen k * expect n (P k) rho.
Proof.
  intros U F Hk HG. destruct (frame_both n V P G rho invlen k U F Hk HG) as (T1 & T2).
  unfold expect, anti. rewrite (trace_meq n _ _ (mmult_plus_r n _ _ (P k))), trace_plus, T1, T2. cbn. ring.
Qed.

(** a hamiltonian made of the flavour projectors changes no flavour *)
Lemma coherent_expect n V P Q rho c k : unitary n V -> frame n V P -> (k < n)%nat ->
  meq n Q (msum n (fun j => mscale (c j) (P j))) -> expect n (P k) (coherent n Q rho) = 0.
Proof.
  intros U F Hk HQ. destruct (frame_both n V P Q rho c k U F Hk HQ) as (T1 & T2). unfold expect.
  assert (E : trace n (mmult n (P k) (coherent n Q rho)) =
    (mkC 0 (-1) * (trace n (mmult n (P k) (mmult n Q rho)) - trace n (mmult n (P k) (mmult n rho Q))))%C).
  { unfold trace. unfold cminus.
    assert (N : forall m f, (- csum m f)%C = csum m (fun i => (- f i)%C)).
    { clear. intros m f. induction m as [|m IH]; cbn [csum]; [apply Ceq; cbn; ring|]. rewrite <- IH. ring. }
    rewrite N, <- csum_plus, <- csum_mult_l. apply csum_ext. intros i _.
    unfold mmult at 1 2 4, coherent. rewrite N, <- csum_plus, <- csum_mult_l. apply csum_ext. intros l _. unfold cminus. ring. }
  rewrite E, T1, T2. cbn. ring.
Qed.

Lemma msum3 n m f : (3 <= m)%nat -> (forall k, (3 <= k)%nat -> f k = mzero) ->
  meq n (msum m f) (mplus (mplus (f 0%nat) (f 1%nat)) (f 2%nat)).
Proof.
  intros L Z i j _ _. rewrite msum_at. unfold mplus. destruct m as [|[|[|m]]]; try lia. clear L.
  induction m as [|m IH]; [cbn; ring|]. cbn [csum] in *. rewrite IH, (Z (S (S (S m)))) by lia. unfold mzero. ring.
Qed.
