(** Facts on the matrices of the SU(N) basis. *)
From Coq Require Import Reals List Arith Bool Lia Lra.
From Verif Require Import Err CMatrix FlavorProofs ToolsModel.
Import ListNotations.
Open Scope R_scope.

(** ** Closed form, for dimension [d] *)
Definition step (m : nat) : R := sqrt (2 / (INR (S m) * INR m)).
Definition dg (m a : nat) : R :=
  if Nat.eqb m 0 then 1
  else if Nat.ltb a m then step m else if Nat.eqb a m then - INR m * step m else 0.
Definition unit_at (j k : nat) : mat := fun a b => if Nat.eqb a j && Nat.eqb b k then c1 else c0.
Definition gm (j k : nat) : mat := fun a b =>
  if Nat.eqb j k then (if Nat.eqb a b then rtc (dg j a) else c0)
  else if Nat.ltb k j then cplus (unit_at j k a b) (unit_at k j a b)
  else cmult (mkC 0 (-1)) (cminus (unit_at j k a b) (unit_at k j a b)).

Lemma f_shape j k d : (1 < d)%nat -> (j < d)%nat -> (k < d)%nat -> a_shape (f_array j k d) = [d; d].
Proof.
  revert j k. induction d as [|d IH]; intros j k L Hj Hk; [lia|]. destruct d as [|d]; [lia|]. set (e := S d) in *.
  cbn [f_array]. replace (Nat.eqb (S e) 1) with false by (symmetry; apply Nat.eqb_neq; unfold e; lia).
  replace (S e - 1)%nat with e by lia.
  assert (X : forall i, (i < e)%nat -> ext_shape (f_array i i e) = (e, e)).
  { intros i Hi. unfold ext_shape. destruct (Nat.eq_dec e 1) as [E1|E1].
    - rewrite E1. reflexivity.
    - rewrite IH by lia. reflexivity. }
  destruct (Nat.eqb j k) eqn:Ejk; cbn [andb].
  - apply Nat.eqb_eq in Ejk as <-. destruct (Nat.eqb j e) eqn:Eje; cbn [negb andb].
    + unfold times, direct_sum. rewrite (X 0%nat) by (unfold e; lia). cbn. f_equal; [lia|f_equal; lia].
    + apply Nat.eqb_neq in Eje. destruct (Nat.eqb j 0) eqn:Ej0; cbn [negb].
      * reflexivity.
      * unfold direct_sum. rewrite (X j) by lia. cbn. f_equal; [lia|f_equal; lia].
  - destruct (Nat.ltb k j); reflexivity.
Qed.

Lemma f_closed j k d a b : (j < d)%nat -> (k < d)%nat -> (a < d)%nat -> (b < d)%nat ->
  a_at (f_array j k d) a b = gm j k a b.
Proof.
  revert j k a b. induction d as [|d IH]; intros j k a b Hj Hk Ha Hb; [lia|].
  destruct (Nat.eq_dec d 0) as [->|D0].
  - assert (j = 0 /\ k = 0 /\ a = 0 /\ b = 0)%nat as (-> & -> & -> & ->) by lia. reflexivity.
  - cbn [f_array]. replace (Nat.eqb (S d) 1) with false by (symmetry; apply Nat.eqb_neq; lia).
    replace (S d - 1)%nat with d by lia.
    assert (X : forall i, (i < d)%nat -> ext_shape (f_array i i d) = (d, d)).
    { intros i Hi. unfold ext_shape. destruct (Nat.eq_dec d 1) as [E1|E1].
      - rewrite E1. reflexivity.
      - rewrite f_shape by lia. reflexivity. }
    assert (Sum : forall i x, (i < d)%nat -> a_at (direct_sum (f_array i i d) (vec1 x)) a b =
      if Nat.eqb a d && Nat.eqb b d then rtc x else if Nat.eqb a d || Nat.eqb b d then c0 else gm i i a b).
    { intros i x Hi. unfold direct_sum. rewrite (X i Hi). cbn [ext_shape vec1 a_shape List.length nth Nat.eqb a_at].
      destruct (Nat.eqb a d) eqn:Ea; [apply Nat.eqb_eq in Ea|apply Nat.eqb_neq in Ea];
      (destruct (Nat.eqb b d) eqn:Eb; [apply Nat.eqb_eq in Eb|apply Nat.eqb_neq in Eb]); cbn [andb orb].
      - subst a b. rewrite Nat.ltb_irrefl, Nat.leb_refl. reflexivity.
      - subst a. rewrite Nat.ltb_irrefl. cbn [andb]. rewrite (proj2 (Nat.leb_gt d b)) by lia. rewrite andb_false_r. reflexivity.
      - subst b. rewrite Nat.ltb_irrefl, andb_false_r. rewrite (proj2 (Nat.leb_gt d a)) by lia. reflexivity.
      - rewrite (proj2 (Nat.ltb_lt a d)), (proj2 (Nat.ltb_lt b d)) by lia. cbn [andb].
        destruct (Nat.eqb d 1) eqn:E1; cbn [andb].
        + apply Nat.eqb_eq in E1. assert (b = 0)%nat as -> by lia. cbn [Nat.eqb]. apply IH; lia.
        + apply IH; lia. }
    destruct (Nat.eqb j k) eqn:Ejk; cbn [andb].
    + apply Nat.eqb_eq in Ejk as <-. destruct (Nat.eqb j d) eqn:Ejd; cbn [negb andb].
      * apply Nat.eqb_eq in Ejd as ->. unfold times. cbn [a_at]. rewrite Sum by lia.
        unfold gm. rewrite !Nat.eqb_refl. unfold dg. replace (Nat.eqb d 0) with false by (symmetry; apply Nat.eqb_neq; exact D0).
        assert (St : sqrt (2 / (INR (S d) * (INR (S d) - 1))) = step d).
        { unfold step. f_equal. f_equal. f_equal. rewrite S_INR. ring. }
        rewrite St.
        destruct (Nat.eqb a d) eqn:Ea; [apply Nat.eqb_eq in Ea|apply Nat.eqb_neq in Ea];
        (destruct (Nat.eqb b d) eqn:Eb; [apply Nat.eqb_eq in Eb|apply Nat.eqb_neq in Eb]); cbn [andb orb].
        -- subst a b. rewrite Nat.eqb_refl, Nat.ltb_irrefl, <- rtc_mult. f_equal. rewrite S_INR. ring.
        -- subst a. rewrite (proj2 (Nat.eqb_neq d b)) by congruence. ring.
        -- subst b. rewrite (proj2 (Nat.eqb_neq a d)) by congruence. ring.
        -- destruct (Nat.eqb a b); [|ring]. rewrite (proj2 (Nat.ltb_lt a d)) by lia. cbn [Nat.eqb]. rewrite rtc_1. ring.
      * apply Nat.eqb_neq in Ejd. destruct (Nat.eqb j 0) eqn:Ej0; cbn [negb andb].
        -- apply Nat.eqb_eq in Ej0 as ->. unfold gm, dg. cbn [Nat.eqb identity a_at]. destruct (Nat.eqb a b); reflexivity.
        -- apply Nat.eqb_neq in Ej0. rewrite Sum by lia. unfold gm. rewrite Nat.eqb_refl. unfold dg.
           replace (Nat.eqb j 0) with false by (symmetry; apply Nat.eqb_neq; exact Ej0).
           destruct (Nat.eqb a d) eqn:Ea; [apply Nat.eqb_eq in Ea|apply Nat.eqb_neq in Ea];
           (destruct (Nat.eqb b d) eqn:Eb; [apply Nat.eqb_eq in Eb|apply Nat.eqb_neq in Eb]); cbn [andb orb].
           ++ subst a b. rewrite Nat.eqb_refl. rewrite (proj2 (Nat.ltb_ge d j)) by lia.
              rewrite (proj2 (Nat.eqb_neq d j)) by congruence. reflexivity.
           ++ subst a. rewrite (proj2 (Nat.eqb_neq d b)) by congruence. reflexivity.
           ++ subst b. rewrite (proj2 (Nat.eqb_neq a d)) by congruence. reflexivity.
           ++ reflexivity.
    + unfold gm. rewrite Ejk. destruct (Nat.ltb k j); reflexivity.
Qed.

(** ** Traces *)
Lemma trace_unit n j k M : (j < n)%nat -> (k < n)%nat -> trace n (mmult n (unit_at j k) M) = M k j.
Proof.
  intros Hj Hk. unfold trace. rewrite (csum_single n j); [|exact Hj|].
  - unfold mmult, unit_at. rewrite Nat.eqb_refl. rewrite (csum_single n k); [|exact Hk|].
    + rewrite Nat.eqb_refl. cbn [andb]. ring.
    + intros b _ N. rewrite (proj2 (Nat.eqb_neq b k) N). cbn [andb]. ring.
  - intros a _ N. unfold mmult, unit_at. rewrite (proj2 (Nat.eqb_neq a j) N). apply csum_zero. intros. cbn [andb]. ring.
Qed.

Lemma csum_opp n f : csum n (fun i => (- f i)%C) = (- csum n f)%C.
Proof. induction n as [|n IH]; cbn [csum]; [apply Ceq; cbn; ring|]. rewrite IH. ring. Qed.

Lemma trace_sym n j k M : (j < n)%nat -> (k < n)%nat -> (k < j)%nat ->
  trace n (mmult n (gm j k) M) = (M k j + M j k)%C.
Proof.
  intros Hj Hk L. rewrite <- (trace_unit n j k M Hj Hk), <- (trace_unit n k j M Hk Hj), <- trace_plus.
  apply trace_meq. eapply meq_trans; [|apply mmult_plus_l]. apply mmult_meq; [|apply meq_refl]. intros a b _ _.
  unfold gm. rewrite (proj2 (Nat.eqb_neq j k)) by lia. rewrite (proj2 (Nat.ltb_lt k j)) by lia. reflexivity.
Qed.
Lemma trace_anti n j k M : (j < n)%nat -> (k < n)%nat -> (j < k)%nat ->
  trace n (mmult n (gm j k) M) = (mkC 0 (-1) * (M k j - M j k))%C.
Proof.
  intros Hj Hk L. rewrite <- (trace_unit n j k M Hj Hk), <- (trace_unit n k j M Hk Hj). unfold cminus.
  unfold trace. rewrite <- csum_opp, <- csum_plus, <- csum_mult_l. apply csum_ext. intros a Ha.
  unfold mmult. rewrite <- csum_opp, <- csum_plus, <- csum_mult_l. apply csum_ext. intros b Hb.
  unfold gm. rewrite (proj2 (Nat.eqb_neq j k)) by lia. rewrite (proj2 (Nat.ltb_ge k j)) by lia. unfold cminus. ring.
Qed.
Lemma trace_dg n m M : trace n (mmult n (gm m m) M) = csum n (fun a => (rtc (dg m a) * M a a)%C).
Proof.
  unfold trace. apply csum_ext. intros a Ha. unfold mmult. rewrite (csum_single n a); [|exact Ha|].
  - unfold gm. rewrite !Nat.eqb_refl. reflexivity.
  - intros b _ N. unfold gm. rewrite Nat.eqb_refl, (proj2 (Nat.eqb_neq a b)) by congruence. ring.
Qed.

Lemma steps_sum n m x y : (m < n)%nat ->
  rsum n (fun a => if Nat.ltb a m then x else if Nat.eqb a m then y else 0) = INR m * x + y.
Proof.
  induction n as [|n IH]; intro L; [lia|]. cbn [rsum]. destruct (Nat.eq_dec m n) as [->|N].
  - rewrite Nat.ltb_irrefl, Nat.eqb_refl. f_equal.
    rewrite (rsum_ext n _ (fun _ => x)). 2:{ intros i Hi. rewrite (proj2 (Nat.ltb_lt i n)) by lia. reflexivity. }
    clear. induction n as [|n IH]; [cbn; ring|]. cbn [rsum]. rewrite IH, S_INR. ring.
  - rewrite IH by lia. rewrite (proj2 (Nat.ltb_ge n m)), (proj2 (Nat.eqb_neq n m)) by lia. ring.
Qed.

Lemma step_sq m : (0 < m)%nat -> step m * step m = 2 / (INR (S m) * INR m).
Proof.
  intro L. unfold step. apply sqrt_sqrt. apply Rlt_le. apply Rdiv_lt_0_compat; [lra|].
  apply Rmult_lt_0_compat; apply lt_0_INR; lia.
Qed.
Lemma step_pos m : (0 < m)%nat -> 0 < step m.
Proof.
  intro L. unfold step. apply sqrt_lt_R0. apply Rdiv_lt_0_compat; [lra|].
  apply Rmult_lt_0_compat; apply lt_0_INR; lia.
Qed.

Lemma dg_sum n m : (0 < m)%nat -> (m < n)%nat -> rsum n (dg m) = 0.
Proof.
  intros L H. rewrite (rsum_ext n _ (fun a => if Nat.ltb a m then step m else if Nat.eqb a m then - INR m * step m else 0)).
  - rewrite steps_sum by exact H. ring.
  - intros a _. unfold dg. rewrite (proj2 (Nat.eqb_neq m 0)) by lia. reflexivity.
Qed.
Lemma dg_square n m : (0 < m)%nat -> (m < n)%nat -> rsum n (fun a => dg m a * dg m a) = 2.
Proof.
  intros L H. rewrite (rsum_ext n _ (fun a => if Nat.ltb a m then step m * step m else
    if Nat.eqb a m then INR m * INR m * (step m * step m) else 0)).
  - rewrite steps_sum by exact H. rewrite step_sq by exact L. rewrite S_INR. pose proof (lt_0_INR m L). field. lra.
  - intros a _. unfold dg. rewrite (proj2 (Nat.eqb_neq m 0)) by lia.
    destruct (Nat.ltb a m); [reflexivity|]. destruct (Nat.eqb a m); ring.
Qed.
Lemma dg_cross n m p : (p < m)%nat -> (m < n)%nat -> rsum n (fun a => dg m a * dg p a) = 0.
Proof.
  intros L H. destruct (Nat.eq_dec p 0) as [->|P0].
  - rewrite (rsum_ext n _ (dg m)); [apply dg_sum; lia|]. intros a _. unfold dg at 2. cbn [Nat.eqb]. ring.
  - rewrite (rsum_ext n _ (fun a => step m * dg p a)).
    + rewrite rsum_scal, dg_sum by lia. ring.
    + intros a _. unfold dg. rewrite (proj2 (Nat.eqb_neq m 0)), (proj2 (Nat.eqb_neq p 0)) by lia.
      destruct (Nat.ltb a p) eqn:E; [apply Nat.ltb_lt in E; rewrite (proj2 (Nat.ltb_lt a m)) by lia; reflexivity|].
      destruct (Nat.eqb a p) eqn:F; [apply Nat.eqb_eq in F; rewrite (proj2 (Nat.ltb_lt a m)) by lia; reflexivity|]. ring.
Qed.

Definition norm (n j k : nat) : R := if Nat.eqb j 0 && Nat.eqb k 0 then INR n else 2.
Lemma norm_pos n j k : (0 < n)%nat -> 0 < norm n j k.
Proof. intro L. unfold norm. destruct (_ && _); [apply lt_0_INR; exact L|lra]. Qed.

Lemma gm_hermitian n j k : hermitian n (gm j k).
Proof.
  intros a b _ _. unfold dagger, gm. destruct (Nat.eqb j k) eqn:E.
  - rewrite Nat.eqb_sym. destruct (Nat.eqb a b) eqn:F; [apply Nat.eqb_eq in F as ->; apply conj_rtc|apply conj_0].
  - unfold unit_at. destruct (Nat.ltb k j);
    destruct (Nat.eqb a j) eqn:A1, (Nat.eqb b k) eqn:A2, (Nat.eqb a k) eqn:A3, (Nat.eqb b j) eqn:A4; cbn [andb];
    try (apply Ceq; cbn; ring).
Qed.

Ltac eqs := repeat match goal with
  | |- context [Nat.eqb ?x ?x] => rewrite (Nat.eqb_refl x)
  | |- context [Nat.eqb ?x ?y] => destruct (Nat.eqb_spec x y); [subst|]
  | |- context [Nat.ltb ?x ?y] => destruct (Nat.ltb_spec x y)
  end.

Lemma gm_trace n j k j' k' : (j < n)%nat -> (k < n)%nat -> (j' < n)%nat -> (k' < n)%nat ->
  trace n (mmult n (gm j k) (gm j' k')) = rtc (if Nat.eqb j j' && Nat.eqb k k' then norm n j k else 0).
Proof.
  intros Hj Hk Hj' Hk'. destruct (lt_eq_lt_dec j k) as [[L|<-]|L].
  - rewrite trace_anti by assumption. unfold norm, gm, unit_at. eqs; cbn [andb]; try lia; apply Ceq; cbn; ring.
  - rewrite trace_dg. destruct (lt_eq_lt_dec j' k') as [[L|<-]|L].
    + replace (Nat.eqb j j' && Nat.eqb j k') with false by (eqs; cbn; try lia; reflexivity).
      apply csum_zero. intros a _. unfold gm, unit_at. eqs; cbn [andb]; try lia; apply Ceq; cbn; ring.
    + rewrite (csum_ext n _ (fun a => rtc (dg j a * dg j' a))).
      2:{ intros a _. unfold gm. rewrite !Nat.eqb_refl, rtc_mult. reflexivity. }
      rewrite <- rtc_rsum. f_equal. destruct (Nat.eqb_spec j j') as [->|N]; cbn [andb].
      * unfold norm. destruct (Nat.eqb_spec j' 0) as [->|Z]; cbn [andb].
        -- unfold dg. cbn [Nat.eqb]. clear. induction n as [|n IH]; [cbn; ring|]. cbn [rsum]. rewrite IH, S_INR. ring.
        -- apply dg_square; lia.
      * destruct (lt_eq_lt_dec j j') as [[Q|Q]|Q]; [|contradiction|apply dg_cross; assumption].
        rewrite (rsum_ext n _ (fun a => dg j' a * dg j a)) by (intros; ring). apply dg_cross; assumption.
    + replace (Nat.eqb j j' && Nat.eqb j k') with false by (eqs; cbn; try lia; reflexivity).
      apply csum_zero. intros a _. unfold gm, unit_at. eqs; cbn [andb]; try lia; apply Ceq; cbn; ring.
  - rewrite trace_sym by assumption. unfold norm, gm, unit_at. eqs; cbn [andb]; try lia; apply Ceq; cbn; ring.
Qed.

(** ** A matrix without overlap with any of them is zero *)
Lemma rtc_cancel x z : x <> 0 -> (rtc x * z)%C = c0 -> z = c0.
Proof.
  intros N E. pose proof (f_equal re E) as A. pose proof (f_equal im E) as B. cbn in A, B.
  apply Ceq; cbn.
  - assert (x * re z = 0) as Q by lra. apply Rmult_integral in Q as [Q|Q]; [contradiction|exact Q].
  - assert (x * im z = 0) as Q by lra. apply Rmult_integral in Q as [Q|Q]; [contradiction|exact Q].
Qed.

Lemma orthogonal_zero n M : (forall j k, (j < n)%nat -> (k < n)%nat -> trace n (mmult n (gm j k) M) = c0) ->
  meq n M mzero.
Proof.
  intro Z.
  assert (Off : forall j k, (j < n)%nat -> (k < n)%nat -> (k < j)%nat -> M j k = c0 /\ M k j = c0).
  { intros j k Hj Hk L. pose proof (Z j k Hj Hk) as A. rewrite trace_sym in A by assumption.
    pose proof (Z k j Hk Hj) as B. rewrite trace_anti in B by assumption.
    pose proof (f_equal re A) as A1. pose proof (f_equal im A) as A2. pose proof (f_equal re B) as B1. pose proof (f_equal im B) as B2.
    cbn in A1, A2, B1, B2. split; apply Ceq; cbn; lra. }
  assert (Dg : forall m, (0 < m)%nat -> (m < n)%nat -> csum m (fun a => M a a) = (rtc (INR m) * M m m)%C).
  { intros m L H. pose proof (Z m m H H) as A. rewrite trace_dg in A.
    assert (E : csum n (fun a => (rtc (dg m a) * M a a)%C) =
                (rtc (step m) * (csum m (fun a => M a a) - rtc (INR m) * M m m))%C).
    { clear A. assert (G : forall q, (m < q)%nat -> csum q (fun a => (rtc (dg m a) * M a a)%C) =
        (rtc (step m) * (csum m (fun a => M a a) - rtc (INR m) * M m m))%C).
      { induction q as [|q IH]; intro Lq; [lia|]. cbn [csum]. destruct (Nat.eq_dec m q) as [<-|N].
        - rewrite (csum_ext m _ (fun a => (rtc (step m) * M a a)%C)).
          2:{ intros i Hi. unfold dg. rewrite (proj2 (Nat.eqb_neq m 0)) by lia. rewrite (proj2 (Nat.ltb_lt i m)) by lia. reflexivity. }
          rewrite csum_mult_l. unfold dg. rewrite (proj2 (Nat.eqb_neq m 0)) by lia. rewrite Nat.ltb_irrefl, Nat.eqb_refl.
          rewrite rtc_mult, rtc_opp. ring.
        - rewrite IH by lia. unfold dg. rewrite (proj2 (Nat.eqb_neq m 0)) by lia. rewrite (proj2 (Nat.ltb_ge q m)) by lia.
          rewrite (proj2 (Nat.eqb_neq q m)) by lia. rewrite rtc_0. ring. }
      apply G, H. }
    rewrite E in A. apply rtc_cancel in A; [|pose proof (step_pos m L); lra].
    pose proof (f_equal re A) as A1. pose proof (f_equal im A) as A2. apply Ceq; cbn in *; lra. }
  assert (Same : forall m, (m < n)%nat -> M m m = M 0%nat 0%nat /\ csum (S m) (fun a => M a a) = (rtc (INR (S m)) * M 0%nat 0%nat)%C).
  { induction m as [|m IH]; intro H.
    - split; [reflexivity|]. cbn. apply Ceq; cbn; ring.
    - destruct IH as (_ & E); [lia|]. pose proof (Dg (S m) ltac:(lia) H) as D. rewrite E in D.
      assert (Q : M (S m) (S m) = M 0%nat 0%nat).
      { assert (rtc (INR (S m)) * (M (S m) (S m) - M 0%nat 0%nat) = c0)%C as X.
        { replace (rtc (INR (S m)) * (M (S m) (S m) - M 0%nat 0%nat))%C with
            (rtc (INR (S m)) * M (S m) (S m) - rtc (INR (S m)) * M 0%nat 0%nat)%C by ring. rewrite D. ring. }
        apply rtc_cancel in X; [|apply not_0_INR; lia].
        pose proof (f_equal re X) as A1. pose proof (f_equal im X) as A2. apply Ceq; cbn in *; lra. }
      split; [exact Q|]. cbn [csum]. cbn [csum] in E. rewrite E, Q. rewrite (S_INR (S m)), rtc_plus, rtc_1. ring. }
  intros a b Ha Hb. unfold mzero. destruct (lt_eq_lt_dec a b) as [[L|<-]|L].
  - apply (Off b a Hb Ha L).
  - assert (Hn : (0 < n)%nat) by lia. pose proof (Z 0%nat 0%nat Hn Hn) as T. rewrite trace_dg in T.
    rewrite (csum_ext n _ (fun a => M a a)) in T. 2:{ intros i _. unfold dg. cbn [Nat.eqb]. rewrite rtc_1. ring. }
    destruct n as [|n']; [lia|]. destruct (Same n' ltac:(lia)) as (_ & E). rewrite E in T.
    apply rtc_cancel in T; [|apply not_0_INR; lia]. rewrite (proj1 (Same a Ha)). exact T.
  - apply (Off a b Ha Hb L).
Qed.

(** ** Expansion *)
Lemma csum_app a b f : csum (a + b) f = (csum a f + csum b (fun i => f (a + i)%nat))%C.
Proof.
  induction b as [|b IH]; cbn [csum]; [rewrite Nat.add_0_r; ring|]. rewrite Nat.add_succ_r. cbn [csum]. rewrite IH. ring.
Qed.
Lemma csum_grid m n f : csum (m * n) f = csum m (fun i => csum n (fun j => f (i * n + j)%nat)).
Proof.
  induction m as [|m IH]; [reflexivity|]. replace (S m * n)%nat with (m * n + n)%nat by lia.
  rewrite csum_app, IH. reflexivity.
Qed.

Lemma su_at n i j : (i < n)%nat -> (j < n)%nat -> nth_error (su_basis n) (i * n + j) = Some (f_array j i n).
Proof.
  intros Hi Hj. unfold su_basis.
  assert (G : forall m s, (i < m)%nat ->
    nth_error (flat_map (fun i => map (fun j => f_array j i n) (seq 0 n)) (seq s m)) (i * n + j) = Some (f_array j (s + i) n)).
  { clear Hi. revert i. induction i as [|i IH]; intros m s H; (destruct m as [|m]; [lia|]); cbn [seq flat_map].
    - rewrite nth_error_app1 by (rewrite map_length, seq_length; lia). rewrite Nat.add_0_r. cbn [Nat.mul Nat.add].
      rewrite nth_error_map. rewrite (nth_error_nth' _ 0%nat) by (rewrite seq_length; lia).
      rewrite seq_nth by lia. reflexivity.
    - rewrite nth_error_app2 by (rewrite map_length, seq_length; lia). rewrite map_length, seq_length.
      replace (S i * n + j - n)%nat with (i * n + j)%nat by lia. rewrite IH by lia. f_equal. f_equal. lia. }
  rewrite G by exact Hi. reflexivity.
Qed.
Lemma su_length n : List.length (su_basis n) = (n * n)%nat.
Proof.
  unfold su_basis.
  assert (G : forall m s, List.length (flat_map (fun i => map (fun j => f_array j i n) (seq 0 n)) (seq s m)) = (m * n)%nat).
  { induction m as [|m IH]; intro s; [reflexivity|].
    cbn [seq flat_map]. rewrite app_length, map_length, seq_length, IH. reflexivity. }
  apply G.
Qed.

Lemma f_cplx j k d : (j < d)%nat -> (k < d)%nat -> a_cplx (f_array j k d) = Nat.ltb j k.
Proof.
  intros Hj Hk. destruct d as [|d]; [lia|]. cbn [f_array].
  destruct (Nat.eqb_spec (S d) 1) as [E|E].
  - assert (j = 0 /\ k = 0)%nat as (-> & ->) by lia. reflexivity.
  - replace (S d - 1)%nat with d by lia. destruct (Nat.eqb_spec j k) as [->|N]; cbn [andb].
    + rewrite Nat.ltb_irrefl. destruct (Nat.eqb k d) eqn:A; cbn [negb andb].
      * unfold times, direct_sum. destruct (ext_shape _), (ext_shape _). reflexivity.
      * destruct (Nat.eqb k 0) eqn:B; cbn [negb].
        -- reflexivity.
        -- unfold direct_sum. destruct (ext_shape _), (ext_shape _). reflexivity.
    + destruct (Nat.ltb_spec k j); destruct (Nat.ltb_spec j k); try lia; reflexivity.
Qed.
