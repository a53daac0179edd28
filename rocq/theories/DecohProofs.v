(** Lemmas for C77. *)
From Coq Require Import Reals List Arith Bool Lia Lra.
From Verif Require Import CMatrix FlavorModel FlavorProofs FlavorEqn DecohModel.
Open Scope R_scope.

(** ** The loops *)
Lemma loop_inv {X} (f : nat -> X -> call X) (Q : nat -> X -> Prop) m : forall lo x,
  (forall k x, (lo <= k < lo + m)%nat -> Q k x -> exists y, f k x = (y, false) /\ Q (Datatypes.S k) y) ->
  Q lo x -> exists y, loop m lo f x = (y, false) /\ Q (lo + m)%nat y.
Proof.
  induction m as [|m IH]; intros lo x St H; cbn [loop].
  - exists x. rewrite Nat.add_0_r. auto.
  - destruct (St lo x) as (y & E & Hy); [lia|exact H|]. rewrite E.
    destruct (IH (Datatypes.S lo) y) as (z & Ez & Hz); [intros k x' Hk; apply St; lia|exact Hy|].
    exists z. split; [exact Ez|]. rewrite <- Nat.add_succ_comm. exact Hz.
Qed.

Lemma put_same g m k x : put g m k x m k = x.
Proof. unfold put. rewrite !Nat.eqb_refl. reflexivity. Qed.
Lemma put_other g m k x i j : i <> m \/ j <> k -> put g m k x i j = g i j.
Proof. intros [N|N]; unfold put; apply Nat.eqb_neq in N; rewrite N, ?andb_false_r; reflexivity. Qed.

Lemma puts (mu : nat -> nat) N dmat (f : nat -> nat -> (nat -> nat -> R) -> call (nat -> nat -> R)) g :
  (forall i j, (i < N)%nat -> (j < N)%nat -> mu i = mu j -> i = j) ->
  (forall i j g, (i < N)%nat -> (j < N)%nat -> f i j g = (put g (mu i) (mu j) (dmat i j), false)) ->
  exists h, loop N 0 (fun i => loop N 0 (f i)) g = (h, false) /\
    (forall i j, (i < N)%nat -> (j < N)%nat -> h (mu i) (mu j) = dmat i j) /\
    (forall a b, (forall i, (i < N)%nat -> a <> mu i) -> h a b = g a b).
Proof.
  intros Inj F.
  destruct (loop_inv (fun i => loop N 0 (f i)) (fun m h =>
    (forall i j, (i < m)%nat -> (j < N)%nat -> h (mu i) (mu j) = dmat i j) /\
    (forall a b, (forall i, (i < N)%nat -> a <> mu i) -> h a b = g a b)) N 0 g) as (h & E & H).
  - intros i x Hi [Hd Ho].
    destruct (loop_inv (f i) (fun m h =>
      (forall i' j, (i' < i)%nat -> (j < N)%nat -> h (mu i') (mu j) = dmat i' j) /\
      (forall j, (j < m)%nat -> h (mu i) (mu j) = dmat i j) /\
      (forall a b, (forall i, (i < N)%nat -> a <> mu i) -> h a b = g a b)) N 0 x) as (h & E & H1 & H2 & H3).
    + intros j y Hj (K1 & K2 & K3). exists (put y (mu i) (mu j) (dmat i j)). split; [apply F; lia|]. split; [|split].
      * intros i' j' Hi' Hj'. rewrite put_other; [auto|]. left. intro C. apply Inj in C; lia.
      * intros j' Hj'. destruct (Nat.eq_dec j' j) as [->|N']; [apply put_same|]. rewrite put_other; [apply K2; lia|].
        right. intro C. apply Inj in C; lia.
      * intros a b Hab. rewrite put_other; [apply K3; exact Hab|]. left. apply Hab. lia.
    + split; [exact Hd|]. split; [intros; lia|exact Ho].
    + exists h. split; [exact E|]. split; [|exact H3]. intros i' j Hi' Hj.
      destruct (Nat.eq_dec i' i) as [->|N']; [apply H2; lia|apply H1; lia].
  - split; [intros; lia|reflexivity].
  - exists h. auto.
Qed.

Lemma set_plain n dmat g : exists h, set_elements n false dmat g = (h, false) /\
  (forall i j, (i < n * n)%nat -> (j < n * n)%nat -> h i j = dmat i j).
Proof.
  destruct (puts (fun i => i) (n * n) dmat (fun i j => set_element n false dmat i j) g) as (h & E & H & _); auto.
  exists h. auto.
Qed.

(** the order of the standard generators *)
Definition mu3 (i : nat) : nat :=
  match i with 2 => 3 | 3 => 4 | 4 => 2 | 5 => 6 | 6 => 5 | _ => i end%nat.
Lemma mu3_map i : (i < 9)%nat -> map_basis 3 i = Some (mu3 i).
Proof. intro H. do 9 (destruct i as [|i]; [reflexivity|]). lia. Qed.
Lemma mu3_inj i j : mu3 i = mu3 j -> i = j.
Proof.
  intro H. destruct i as [|[|[|[|[|[|[|i]]]]]]], j as [|[|[|[|[|[|[|j]]]]]]]; cbn [mu3] in H; congruence || lia.
Qed.
Lemma mu3_lt i : (i < 9)%nat -> (mu3 i < 9)%nat.
Proof. intro H. do 9 (destruct i as [|i]; [cbn; lia|]). lia. Qed.
Lemma mu3_onto k : (k < 9)%nat -> exists i, (i < 9)%nat /\ mu3 i = k.
Proof.
  intro H. exists (match k with 3 => 2 | 4 => 3 | 2 => 4 | 6 => 5 | 5 => 6 | _ => k end)%nat.
  do 9 (destruct k as [|k]; [split; [lia|reflexivity]|]). lia.
Qed.
Lemma set_standard dmat g : exists h, set_elements 3 true dmat g = (h, false) /\
  (forall i j, (i < 9)%nat -> (j < 9)%nat -> h (mu3 i) (mu3 j) = dmat i j).
Proof.
  destruct (puts mu3 9 dmat (fun i j => set_element 3 true dmat i j) g) as (h & E & H & _).
  - intros i j _ _. apply mu3_inj.
  - intros i j x Hi Hj. unfold set_element. rewrite (mu3_map i Hi), (mu3_map j Hj). reflexivity.
  - exists h. auto.
Qed.
Lemma set_standard_other n dmat g : (3 < n)%nat -> set_elements n true dmat g = (g, true).
Proof.
  intro H. unfold set_elements. destruct (n * n)%nat as [|m] eqn:E; [nia|]. cbn [loop].
  unfold set_element at 1, map_basis at 1. rewrite (proj2 (Nat.ltb_ge _ _)) by lia.
  rewrite (proj2 (Nat.eqb_neq n 2)), (proj2 (Nat.eqb_neq n 3)) by lia. reflexivity.
Qed.

(** ** Components and matrices *)
Lemma csum_split m k f : csum (m + k) f = cplus (csum m f) (csum k (fun i => f (m + i)%nat)).
Proof.
  induction k as [|k IH]; [rewrite Nat.add_0_r; cbn [csum]; apply Ceq; cbn; ring|].
  rewrite Nat.add_succ_r. cbn [csum]. rewrite IH. apply Ceq; cbn; ring.
Qed.
Lemma csum_rows m n f : csum (m * n) f = csum m (fun r => csum n (fun c => f (n * r + c)%nat)).
Proof.
  induction m as [|m IH]; [reflexivity|]. cbn [Nat.mul]. rewrite Nat.add_comm, csum_split, IH. cbn [csum]. f_equal.
  apply csum_ext. intros c _. f_equal. lia.
Qed.
Lemma div_row n r c : (c < n)%nat -> ((n * r + c) / n = r)%nat.
Proof. intro H. rewrite Nat.mul_comm, Nat.div_add_l by lia. rewrite Nat.div_small by lia. lia. Qed.
Lemma mod_row n r c : (c < n)%nat -> ((n * r + c) mod n = c)%nat.
Proof. intro H. rewrite Nat.add_comm, Nat.mul_comm, Nat.mod_add by lia. apply Nat.mod_small. exact H. Qed.

Definition entry (n : nat) (s : nat -> R) (c : comps) (a b r q : nat) : C :=
  cmult (rtc (c (n * r + q)%nat * s (n * r + q)%nat)) (part n r q a b).
Lemma of_comps_at n s c a b : of_comps n s c a b = csum n (fun r => csum n (fun q => entry n s c a b r q)).
Proof.
  unfold of_comps. rewrite msum_at, csum_rows. apply csum_ext. intros r Hr. apply csum_ext. intros q Hq.
  unfold mscale, gen, entry. unfold mscale. rewrite (div_row n r q Hq), (mod_row n r q Hq). apply Ceq; cbn; ring.
Qed.

Lemma part_off n r q a b : a <> b -> ~ (r = a /\ q = b) -> ~ (r = b /\ q = a) -> part n r q a b = c0.
Proof.
  intros N N1 N2. unfold part. destruct (Nat.eqb_spec r q) as [->|Nrq].
  - destruct (Nat.eqb_spec q 0); [apply delta_ne; exact N|]. apply Nat.eqb_neq in N. rewrite N. reflexivity.
  - destruct (Nat.ltb_spec r q).
    + destruct (Nat.eqb_spec a r), (Nat.eqb_spec b q), (Nat.eqb_spec a q), (Nat.eqb_spec b r); cbn [andb orb]; subst; try reflexivity; exfalso; intuition.
    + destruct (Nat.eqb_spec a r), (Nat.eqb_spec b q), (Nat.eqb_spec a q), (Nat.eqb_spec b r); cbn [andb orb]; subst; try reflexivity; exfalso; intuition.
Qed.
Lemma part_diag n r q a : r <> q -> part n r q a a = c0.
Proof.
  intro N. unfold part. rewrite (proj2 (Nat.eqb_neq r q) N).
  destruct (Nat.ltb r q), (Nat.eqb_spec a r), (Nat.eqb_spec a q); cbn [andb orb]; subst; try reflexivity; contradiction.
Qed.

Lemma csum_pair n f a b : (a < n)%nat -> (b < n)%nat -> a <> b ->
  (forall r q, ~ (r = a /\ q = b) -> ~ (r = b /\ q = a) -> f r q = c0) ->
  csum n (fun r => csum n (fun q => f r q)) = cplus (f a b) (f b a).
Proof.
  intros Ha Hb N Z.
  rewrite (csum_two n a b) by (try assumption; intros r _ Nra Nrb; apply csum_zero; intros q _; apply Z; intuition).
  f_equal; [rewrite (csum_single n b)|rewrite (csum_single n a)]; try assumption; try reflexivity;
    intros q _ Nq; apply Z; intuition.
Qed.
Lemma csum_diagonal n f : (forall r q, r <> q -> f r q = c0) -> csum n (fun r => csum n (fun q => f r q)) = csum n (fun r => f r r).
Proof.
  intro Z. apply csum_ext. intros r Hr. apply csum_single; [exact Hr|]. intros q _ N. apply Z. congruence.
Qed.

Lemma off_diagonal n s c a b : (a < n)%nat -> (b < n)%nat -> a <> b ->
  of_comps n s c a b = cplus (entry n s c a b a b) (entry n s c a b b a).
Proof.
  intros Ha Hb N. rewrite of_comps_at. apply (csum_pair n (entry n s c a b) a b Ha Hb N).
  intros r q N1 N2. unfold entry. rewrite part_off by assumption. ring.
Qed.
Lemma on_diagonal n s c a : of_comps n s c a a = csum n (fun r => entry n s c a a r r).
Proof.
  rewrite of_comps_at. apply csum_diagonal. intros r q N. unfold entry. rewrite part_diag by exact N. ring.
Qed.

(** coefficient of the diagonal generator [r] at [a] *)
Definition dg (r a : nat) : R := if Nat.eqb r 0 then 1 else if Nat.ltb a r then 1 else if Nat.eqb a r then - INR r else 0.
Lemma part_dg n r a : part n r r a a = rtc (dg r a).
Proof.
  unfold part, dg. rewrite !Nat.eqb_refl. destruct (Nat.eqb r 0); [rewrite delta_eq; reflexivity|].
  destruct (Nat.ltb a r); [reflexivity|]. destruct (Nat.eqb a r); reflexivity.
Qed.
Lemma on_diagonal_real n s c a : of_comps n s c a a = rtc (rsum n (fun r => c (n * r + r)%nat * s (n * r + r)%nat * dg r a)).
Proof.
  rewrite on_diagonal, rtc_rsum. apply csum_ext. intros r _. unfold entry. rewrite part_dg, <- rtc_mult. reflexivity.
Qed.

(** *** Trace *)
Lemma rsum_const n x : rsum n (fun _ => x) = INR n * x.
Proof. induction n as [|n IH]; [cbn; ring|]. cbn [rsum]. rewrite IH, S_INR. ring. Qed.
Lemma rsum_zero n f : (forall i, (i < n)%nat -> f i = 0) -> rsum n f = 0.
Proof. intro H. rewrite (rsum_ext n f (fun _ => 0) H). rewrite rsum_const. ring. Qed.
Lemma dg_trace n r : (0 < r)%nat -> (r < n)%nat -> rsum n (fun a => dg r a) = 0.
Proof.
  intros Hr Hn. unfold dg. rewrite (proj2 (Nat.eqb_neq r 0)) by lia.
  assert (A : forall m, (m <= r)%nat -> rsum m (fun a => if Nat.ltb a r then 1 else if Nat.eqb a r then - INR r else 0) = INR m).
  { induction m as [|m IH]; intro L; [reflexivity|]. cbn [rsum]. rewrite IH by lia. rewrite (proj2 (Nat.ltb_lt m r)) by lia. rewrite S_INR. ring. }
  assert (B : forall m, rsum (Datatypes.S r + m) (fun a => if Nat.ltb a r then 1 else if Nat.eqb a r then - INR r else 0) = 0).
  { induction m as [|m IH].
    - rewrite Nat.add_0_r. cbn [rsum]. rewrite A by lia. rewrite Nat.ltb_irrefl, Nat.eqb_refl. ring.
    - rewrite Nat.add_succ_r. cbn [rsum]. rewrite IH. rewrite (proj2 (Nat.ltb_ge _ r)), (proj2 (Nat.eqb_neq _ r)) by lia. ring. }
  replace n with (Datatypes.S r + (n - Datatypes.S r))%nat by lia. apply B.
Qed.
Lemma trace_comps n s c : (0 < n)%nat -> trace n (of_comps n s c) = rtc (INR n * (c 0%nat * s 0%nat)).
Proof.
  intro H. unfold trace. rewrite (csum_ext n _ (fun a => rtc (rsum n (fun r => c (n * r + r)%nat * s (n * r + r)%nat * dg r a)))) by (intros; apply on_diagonal_real).
  rewrite <- rtc_rsum, rsum_swap. f_equal.
  rewrite (rsum_ext n _ (fun r => c (n * r + r)%nat * s (n * r + r)%nat * rsum n (fun a => dg r a))) by (intros r _; apply rsum_scal).
  destruct n as [|m]; [lia|]. clear H.
  assert (G : forall k, (k <= m)%nat -> rsum (Datatypes.S k) (fun r => c (Datatypes.S m * r + r)%nat * s (Datatypes.S m * r + r)%nat * rsum (Datatypes.S m) (fun a => dg r a)) = INR (Datatypes.S m) * (c 0%nat * s 0%nat)).
  { induction k as [|k IH]; intro L.
    - cbn [rsum]. rewrite Nat.mul_0_r, Nat.add_0_l.
      replace (rsum m (fun a => dg 0 a) + dg 0 m) with (INR (Datatypes.S m)); [ring|].
      rewrite S_INR. unfold dg. cbn [Nat.eqb]. rewrite rsum_const. ring.
    - cbn [rsum] in IH |- *. rewrite IH by lia.
      change (rsum m (fun a => dg (Datatypes.S k) a) + dg (Datatypes.S k) m) with (rsum (Datatypes.S m) (fun a => dg (Datatypes.S k) a)).
      rewrite dg_trace by lia. ring. }
  apply (G m). lia.
Qed.

(** *** Linear *)
Lemma of_comps_ext n s c c' : (forall k, (k < n * n)%nat -> c k = c' k) -> forall a b, of_comps n s c a b = of_comps n s c' a b.
Proof. intros H a b. unfold of_comps. rewrite !msum_at. apply csum_ext. intros k Hk. rewrite (H k Hk). reflexivity. Qed.
Lemma of_comps_scale n s x c a b : of_comps n s (fun k => x * c k) a b = cmult (rtc x) (of_comps n s c a b).
Proof.
  unfold of_comps. rewrite !msum_at, <- csum_mult_l. apply csum_ext. intros k _. unfold mscale. apply Ceq; cbn; ring.
Qed.
Lemma of_comps_minus n s c d a b : of_comps n s (fun k => c k - d k) a b = cminus (of_comps n s c a b) (of_comps n s d a b).
Proof.
  unfold cminus. replace (copp (of_comps n s d a b)) with (cmult (rtc (-1)) (of_comps n s d a b)) by (apply Ceq; cbn; ring).
  unfold of_comps. rewrite !msum_at, <- csum_mult_l, <- csum_plus. apply csum_ext. intros k _. unfold mscale. apply Ceq; cbn; ring.
Qed.
Lemma first_only n s x a b : (0 < n)%nat -> (a < n)%nat -> (b < n)%nat ->
  of_comps n s (fun k => if Nat.eqb k 0 then x else 0) a b = cmult (rtc (x * s 0%nat)) (delta a b).
Proof.
  intros H Ha Hb. unfold of_comps. rewrite msum_at. rewrite (csum_single (n * n) 0); [|nia|].
  - unfold mscale, gen, part. unfold mscale. rewrite Nat.div_0_l, Nat.mod_0_l by lia. cbn [Nat.eqb]. apply Ceq; cbn; ring.
  - intros k _ N. rewrite (proj2 (Nat.eqb_neq k 0) N). unfold mscale. apply Ceq; cbn; ring.
Qed.

(** *** Diagonal rates *)
Lemma entry_rate n s g c a b r q : entry n s (fun k => g k * c k) a b r q = cmult (rtc (g (n * r + q)%nat)) (entry n s c a b r q).
Proof. unfold entry. apply Ceq; cbn; ring. Qed.
Definition alike (n : nat) (g : nat -> R) : Prop := forall r q, (r < n)%nat -> (q < n)%nat -> g (n * r + q)%nat = g (n * q + r)%nat.
Lemma rated n s g c a b : alike n g -> (a < n)%nat -> (b < n)%nat -> a <> b ->
  of_comps n s (fun k => g k * c k) a b = cmult (rtc (g (n * a + b)%nat)) (of_comps n s c a b).
Proof.
  intros A Ha Hb N. rewrite !off_diagonal by assumption. rewrite !entry_rate, (A b a) by assumption. ring.
Qed.

(** the diagonal components are determined by the diagonal *)
Lemma diag_sum n e a : (1 <= a)%nat -> (a < n)%nat ->
  rsum n (fun r => e r * dg r a) = e 0%nat - INR a * e a + (rsum n e - rsum (Datatypes.S a) e).
Proof.
  intros Ha Hn. replace n with (Datatypes.S a + (n - Datatypes.S a))%nat by lia. generalize (n - Datatypes.S a)%nat. intro m.
  induction m as [|m IH].
  - rewrite Nat.add_0_r. destruct a as [|a]; [lia|].
    assert (Z : forall k, (k <= a)%nat -> rsum (Datatypes.S k) (fun r => e r * dg r (Datatypes.S a)) = e 0%nat).
    { induction k as [|k IHk]; intro L; [cbn [rsum]; unfold dg; cbn [Nat.eqb]; ring|].
      cbn [rsum] in IHk |- *. rewrite IHk by lia. unfold dg. cbn [Nat.eqb].
      rewrite (proj2 (Nat.ltb_ge (Datatypes.S a) (Datatypes.S k))) by lia.
      replace (Nat.eqb a k) with false by (symmetry; apply Nat.eqb_neq; lia). ring. }
    change (rsum (Datatypes.S (Datatypes.S a)) (fun r => e r * dg r (Datatypes.S a))) with
      (rsum (Datatypes.S a) (fun r => e r * dg r (Datatypes.S a)) + e (Datatypes.S a) * dg (Datatypes.S a) (Datatypes.S a)).
    rewrite Z by lia. unfold dg. cbn [Nat.eqb]. rewrite Nat.ltb_irrefl, Nat.eqb_refl. ring.
  - rewrite Nat.add_succ_r. cbn [rsum] in IH |- *. rewrite IH. unfold dg.
    rewrite (proj2 (Nat.eqb_neq (Datatypes.S a + m) 0)), (proj2 (Nat.ltb_lt a (Datatypes.S a + m))) by lia. ring.
Qed.
Lemma diag_zero n e : (forall a, (a < n)%nat -> rsum n (fun r => e r * dg r a) = 0) -> forall r, (r < n)%nat -> e r = 0.
Proof.
  intro Z.
  assert (Z0 : (0 < n)%nat -> rsum n e = 0).
  { intro H. rewrite <- (Z 0%nat H). apply rsum_ext. intros r _. unfold dg. destruct (Nat.eqb_spec r 0); [ring|].
    rewrite (proj2 (Nat.ltb_lt 0 r)) by lia. ring. }
  assert (P : forall a, (1 <= a)%nat -> (a < n)%nat -> forall r, (1 <= r <= a)%nat -> e r = 0).
  { induction a as [|a IH]; [lia|]. intros _ Ha r Hr.
    destruct (Nat.eq_dec r (Datatypes.S a)) as [->|N]; [|apply IH; lia].
    assert (B : forall k, (k <= a)%nat -> rsum (Datatypes.S k) e = e 0%nat).
    { induction k as [|k IHk]; intro L; [cbn [rsum]; ring|]. cbn [rsum] in IHk |- *. rewrite IHk by lia. rewrite (IH ltac:(lia) ltac:(lia) (Datatypes.S k)) by lia. ring. }
    pose proof (Z (Datatypes.S a) Ha) as E. rewrite diag_sum in E by lia.
    change (rsum (Datatypes.S (Datatypes.S a)) e) with (rsum (Datatypes.S a) e + e (Datatypes.S a)) in E.
    rewrite B in E by lia. rewrite Z0 in E by lia. pose proof (pos_INR (Datatypes.S a)).
    assert (F : (INR (Datatypes.S a) + 1) * e (Datatypes.S a) = 0) by lra.
    apply Rmult_integral in F. destruct F; lra. }
  intros r Hr. destruct (Nat.eq_dec r 0) as [->|N]; [|apply (P r); lia].
  rewrite <- (Z0 Hr).
  assert (B : forall k, (k < n)%nat -> rsum (Datatypes.S k) e = e 0%nat).
  { induction k as [|k IHk]; intro L; [cbn [rsum]; ring|]. cbn [rsum] in IHk |- *. rewrite IHk by lia. rewrite (P (Datatypes.S k) ltac:(lia) ltac:(lia) (Datatypes.S k)) by lia. ring. }
  destruct n as [|m]; [lia|]. symmetry. apply B. lia.
Qed.

(** *** What DRho is *)
Lemma diagonal_rates o E rho g : (forall i j, (i < d_n o * d_n o)%nat -> (j < d_n o * d_n o)%nat -> d_gamma o i j = if Nat.eqb i j then g i else 0) ->
  forall k, (k < d_n o * d_n o)%nat -> drho o E rho k = strength o E * g k * rho k.
Proof.
  intros G k Hk. unfold drho.
  assert (S1 : forall N f, (k < N)%nat -> (forall i, (i < N)%nat -> i <> k -> f i = 0) -> rsum N f = f k).
  { clear. induction N as [|N IH]; intros f H Z; [lia|]. cbn [rsum]. destruct (Nat.eq_dec k N) as [->|Ne].
    - rewrite rsum_zero; [ring|]. intros i Hi. apply Z; lia.
    - rewrite IH by (try lia; intros; apply Z; lia). rewrite (Z N) by lia. ring. }
  rewrite S1; [|exact Hk|].
  - rewrite G by assumption. rewrite Nat.eqb_refl. ring.
  - intros i Hi N. rewrite G by assumption. rewrite (proj2 (Nat.eqb_neq k i)) by congruence. ring.
Qed.

Lemma set_diagonal_plain e0 dmat o : e0 = (d_n o * d_n o)%nat -> exists o', set_diagonal e0 dmat false o = (o', false) /\
  d_n o' = d_n o /\ d_on o' = d_on o /\ d_power o' = d_power o /\ d_scale o' = d_scale o /\ d_inter o' = d_inter o /\ d_sources o' = d_sources o /\ d_other o' = d_other o /\
  (forall i j, (i < d_n o * d_n o)%nat -> (j < d_n o * d_n o)%nat -> d_gamma o' i j = if Nat.eqb i j then dmat i else 0).
Proof.
  intros ->. unfold set_diagonal, set_gamma. rewrite Nat.eqb_refl. cbn [negb orb].
  destruct (set_plain (d_n o) (fun i j => if Nat.eqb i j then dmat i else 0) (d_gamma o)) as (h & E & H). rewrite E.
  eexists. split; [reflexivity|]. cbn [with_gamma d_n d_on d_power d_scale d_inter d_sources d_other d_gamma]. auto 10.
Qed.
