(** Lemmas about SolarModel: sorting of eigensystems, their uniqueness, linear interpolation. *)
From Coq Require Import Reals List Arith Bool Lia Lra Psatz.
From Verif Require Import Err CMatrix FlavorModel FlavorProofs SolarModel.
Import ListNotations.
Local Open Scope R_scope.

(** eigenvalues and, in columns, an orthonormal basis of eigenvectors *)
Definition eigsys (n : nat) (H : mat) (e : (nat -> R) * mat) : Prop :=
  unitary n (snd e) /\
  forall a j, (a < n)%nat -> (j < n)%nat -> csum n (fun k => cmult (H a k) (snd e k j)) = cmult (rtc (fst e j)) (snd e a j).
Definition ascending (n : nat) (l : nat -> R) : Prop := forall i j, (i < j)%nat -> (j < n)%nat -> l i <= l j.
Definition strictly (n : nat) (l : nat -> R) : Prop := forall i j, (i < j)%nat -> (j < n)%nat -> l i < l j.

(** ** swapping *)
Lemma swap_self A i (f : nat -> A) x : swap_at i i f x = f x.
Proof. unfold swap_at. destruct (Nat.eqb_spec x i) as [->|_]; reflexivity. Qed.
Definition sw (i k x : nat) : nat := swap_at i k (fun y => y) x.
Lemma swap_sw A i k (f : nat -> A) x : swap_at i k f x = f (sw i k x).
Proof. unfold sw, swap_at. destruct (Nat.eqb x i); [reflexivity|]. destruct (Nat.eqb x k); reflexivity. Qed.
Lemma sw_lt n i k x : (i < n)%nat -> (k < n)%nat -> (x < n)%nat -> (sw i k x < n)%nat.
Proof. unfold sw, swap_at. destruct (Nat.eqb x i); [lia|]. destruct (Nat.eqb x k); lia. Qed.
Lemma sw_sw i k x : sw i k (sw i k x) = x.
Proof.
  unfold sw, swap_at. destruct (Nat.eqb_spec x i) as [->|X].
  - rewrite Nat.eqb_refl. destruct (Nat.eqb_spec k i); [assumption|reflexivity].
  - destruct (Nat.eqb_spec x k) as [->|Y]; [rewrite Nat.eqb_refl; reflexivity|].
    rewrite (proj2 (Nat.eqb_neq x i) X), (proj2 (Nat.eqb_neq x k) Y). reflexivity.
Qed.
Lemma csum_swap_at n i k f : (i < n)%nat -> (k < n)%nat -> csum n (swap_at i k f) = csum n f.
Proof.
  intros I K. destruct (Nat.eq_dec i k) as [->|N].
  - apply csum_ext. intros x _. apply swap_self.
  - transitivity (csum n (fun x => cplus (f x) (cplus (if Nat.eqb x i then cminus (f k) (f i) else c0) (if Nat.eqb x k then cminus (f i) (f k) else c0)))).
    + apply csum_ext. intros x _. unfold swap_at. destruct (Nat.eqb_spec x i) as [->|X].
      * rewrite (proj2 (Nat.eqb_neq i k) N). ring.
      * destruct (Nat.eqb_spec x k) as [->|Y]; ring.
    + rewrite !csum_plus. rewrite (csum_single n i (fun x => if Nat.eqb x i then _ else c0)); [|exact I|intros x _ X; rewrite (proj2 (Nat.eqb_neq x i) X); reflexivity].
      rewrite (csum_single n k (fun x => if Nat.eqb x k then _ else c0)); [|exact K|intros x _ X; rewrite (proj2 (Nat.eqb_neq x k) X); reflexivity].
      rewrite !Nat.eqb_refl. ring.
Qed.
Lemma eigsys_swap n H l V i k : (i < n)%nat -> (k < n)%nat -> eigsys n H (l, V) ->
  eigsys n H (swap_at i k l, fun a => swap_at i k (V a)).
Proof.
  intros I K ((U1 & U2) & E). cbn [fst snd] in *. split; [split|]; cbn [fst snd].
  - intros a b A B. rewrite <- (U1 a b A B). unfold mmult, dagger.
    rewrite <- (csum_swap_at n i k (fun x => cmult (V a x) (cconj (V b x))) I K). apply csum_ext. intros x _. rewrite !swap_sw. reflexivity.
  - intros a b A B. pose proof (U2 (sw i k a) (sw i k b) (sw_lt n i k a I K A) (sw_lt n i k b I K B)) as X. unfold mmult, dagger in *.
    transitivity (csum n (fun x => cmult (cconj (V x (sw i k a))) (V x (sw i k b)))); [apply csum_ext; intros x _; rewrite !swap_sw; reflexivity|].
    rewrite X. unfold mid, delta. destruct (Nat.eqb_spec (sw i k a) (sw i k b)) as [Y|Y].
    + assert (a = b) as -> by (rewrite <- (sw_sw i k a), Y; apply sw_sw). rewrite Nat.eqb_refl. reflexivity.
    + rewrite (proj2 (Nat.eqb_neq a b)); [reflexivity|]. intros ->. contradiction.
  - intros a j A J. pose proof (E a (sw i k j) A (sw_lt n i k j I K J)) as X. rewrite !swap_sw. rewrite <- X. apply csum_ext. intros x _. rewrite swap_sw. reflexivity.
Qed.

(** ** selection sort *)
Lemma smallest_spec l m : forall j k, let s := smallest l m j k in
  (s = k \/ (j <= s < j + m)%nat) /\ l s <= l k /\ forall x, (j <= x < j + m)%nat -> l s <= l x.
Proof.
  induction m as [|m IH]; intros j k; cbn [smallest].
  - cbv zeta. split; [left; reflexivity|]. split; [lra|]. intros x X. lia.
  - cbv zeta in *. destruct (Rlt_dec (l j) (l k)) as [L|L].
    + destruct (IH (S j) j) as (A & B & D). split; [|split].
      * destruct A as [A|A]; [rewrite A; right; lia|right; lia].
      * lra.
      * intros x X. destruct (Nat.eq_dec x j) as [->|N]; [exact B|]. apply D. lia.
    + destruct (IH (S j) k) as (A & B & D). split; [|split].
      * destruct A as [A|A]; [left; exact A|right; lia].
      * exact B.
      * intros x X. destruct (Nat.eq_dec x j) as [->|N]; [lra|]. apply D. lia.
Qed.
Lemma sort_spec n H m : forall i e, (i + m + 1 = n)%nat -> eigsys n H e ->
  (forall a b, (a < i)%nat -> (a < b < n)%nat -> fst e a <= fst e b) ->
  eigsys n H (sort_from m i e) /\ ascending n (fst (sort_from m i e)).
Proof.
  induction m as [|m IH]; intros i (l, V) N E P.
  - cbn [sort_from]. split; [exact E|]. intros a b A B. apply P; lia.
  - cbn [sort_from fst snd]. set (k := smallest l (S m) (S i) i).
    destruct (smallest_spec l (S m) (S i) i) as (K1 & K2 & K3). fold k in K1, K2, K3.
    assert (K : (i <= k < n)%nat) by lia.
    apply IH; [lia|apply eigsys_swap; [lia|lia|exact E]|]. cbn [fst snd] in *.
    intros a b A B. unfold swap_at.
    destruct (Nat.eqb_spec a i) as [->|NA].
    + rewrite (proj2 (Nat.eqb_neq b i)) by lia. destruct (Nat.eqb_spec b k) as [->|NB]; [exact K2|]. apply K3. lia.
    + rewrite (proj2 (Nat.eqb_neq a k)) by lia. destruct (Nat.eqb_spec b i) as [->|NB]; [apply P; lia|]. destruct (Nat.eqb_spec b k) as [->|NB']; apply P; lia.
Qed.
Lemma hermv_sort_spec n H e : eigsys n H e -> eigsys n H (hermv_sort n e) /\ ascending n (fst (hermv_sort n e)).
Proof.
  intro E. unfold hermv_sort. destruct n as [|n].
  - cbn. split; [exact E|]. intros i j _ J. lia.
  - apply sort_spec; [lia|exact E|]. intros a b A. lia.
Qed.

(** ** unitary matrices, by rows and columns *)
Lemma col_one n V j : unitary n V -> (j < n)%nat -> rsum n (fun a => cnorm2 (V a j)) = 1.
Proof.
  intros (_ & B) J. pose proof (B j j J J) as X. unfold mmult, dagger, mid, delta in X. rewrite Nat.eqb_refl in X.
  apply (f_equal re) in X. rewrite csum_re in X. change (re c1) with 1 in X. rewrite <- X. apply rsum_ext. intros a _. unfold cnorm2. cbn. ring.
Qed.
Lemma row_one n V a : unitary n V -> (a < n)%nat -> rsum n (fun j => cnorm2 (V a j)) = 1.
Proof.
  intros (B & _) J. pose proof (B a a J J) as X. unfold mmult, dagger, mid, delta in X. rewrite Nat.eqb_refl in X.
  apply (f_equal re) in X. rewrite csum_re in X. change (re c1) with 1 in X. rewrite <- X. apply rsum_ext. intros j _. unfold cnorm2. cbn. ring.
Qed.
Lemma rsum_nonzero n f : rsum n f <> 0 -> exists i, (i < n)%nat /\ f i <> 0.
Proof.
  induction n as [|n IH]; cbn [rsum]; intro H; [lra|].
  destruct (Req_dec (f n) 0) as [Z|Z]; [|exists n; split; [lia|exact Z]].
  destruct IH as (i & I & X); [lra|]. exists i. split; [lia|exact X].
Qed.
Lemma cnorm2_0 : cnorm2 c0 = 0. Proof. unfold cnorm2, c0. cbn. ring. Qed.
Lemma cnorm2_mult a b : cnorm2 (cmult a b) = cnorm2 a * cnorm2 b.
Proof. unfold cnorm2. cbn. ring. Qed.
Lemma cnorm2_nonzero a : a <> c0 -> cnorm2 a <> 0.
Proof.
  intros H X. apply H. unfold cnorm2 in X. apply Ceq; cbn; nra.
Qed.
Lemma cmult_nonzero a b : a <> c0 -> b <> c0 -> cmult a b <> c0.
Proof.
  intros A B X. apply (f_equal cnorm2) in X. rewrite cnorm2_mult, cnorm2_0 in X. apply Rmult_integral in X.
  destruct X as [X|X]; [exact (cnorm2_nonzero a A X)|exact (cnorm2_nonzero b B X)].
Qed.
Lemma conj_nonzero a : a <> c0 -> cconj a <> c0.
Proof. intros A X. apply A. rewrite <- (conj_conj a), X. apply conj_0. Qed.
Lemma c0_dec (a : C) : a = c0 \/ a <> c0.
Proof.
  destruct a as (x, y). destruct (Req_dec x 0) as [->|X]; [|right; intro E; apply X; exact (f_equal re E)].
  destruct (Req_dec y 0) as [->|Y]; [left; reflexivity|right; intro E; apply Y; exact (f_equal im E)].
Qed.

(** ** two eigensystems of one matrix, the eigenvalues in ascending order and those of the first all different *)
Section Unique.
  Variables (n : nat) (H : mat) (l l' : nat -> R) (V V' : mat).
  Hypotheses (E : eigsys n H (l, V)) (E' : eigsys n H (l', V')) (SL : strictly n l) (AL : ascending n l').
  Let W : mat := mmult n (dagger V) V'.
  Lemma W_unitary : unitary n W.
  Proof. apply unitary_mult; [apply unitary_dagger; exact (proj1 E)|exact (proj1 E')]. Qed.
  (** H = V l V^dagger *)
  Lemma H_left i b : (i < n)%nat -> (b < n)%nat -> csum n (fun a => cmult (cconj (V a i)) (H a b)) = cmult (rtc (l i)) (cconj (V b i)).
  Proof.
    intros I B. destruct E as ((U1 & U2) & EV). cbn [fst snd] in *.
    transitivity (csum n (fun a => cmult (cconj (V a i)) (csum n (fun k => cmult (H a k) (mid k b))))).
    { apply csum_ext. intros a _. f_equal. rewrite (csum_single n b); [unfold mid, delta; rewrite Nat.eqb_refl; ring|exact B|].
      intros k _ K. unfold mid, delta. rewrite (proj2 (Nat.eqb_neq k b) K). ring. }
    transitivity (csum n (fun a => cmult (cconj (V a i)) (csum n (fun k => cmult (H a k) (csum n (fun j => cmult (V k j) (cconj (V b j)))))))).
    { apply csum_ext. intros a _. f_equal. apply csum_ext. intros k K. f_equal. symmetry. exact (U1 k b K B). }
    transitivity (csum n (fun a => csum n (fun j => cmult (cmult (rtc (l j)) (cmult (cconj (V a i)) (V a j))) (cconj (V b j))))).
    { apply csum_ext. intros a A.
      transitivity (cmult (cconj (V a i)) (csum n (fun j => cmult (csum n (fun k => cmult (H a k) (V k j))) (cconj (V b j))))).
      - f_equal. transitivity (csum n (fun k => csum n (fun j => cmult (cmult (H a k) (V k j)) (cconj (V b j))))).
        + apply csum_ext. intros k _. rewrite <- csum_mult_l. apply csum_ext. intros j _. ring.
        + rewrite csum_swap. apply csum_ext. intros j _. rewrite csum_mult_r. reflexivity.
      - rewrite <- csum_mult_l. apply csum_ext. intros j J. rewrite (EV a j A J). ring. }
    rewrite csum_swap. transitivity (csum n (fun j => cmult (cmult (rtc (l j)) (mid i j)) (cconj (V b j)))).
    { apply csum_ext. intros j J. rewrite csum_mult_r. rewrite csum_mult_l. rewrite <- (U2 i j I J). reflexivity. }
    rewrite (csum_single n i); [unfold mid, delta; rewrite Nat.eqb_refl; ring|exact I|].
    intros j _ J. unfold mid, delta. rewrite (proj2 (Nat.eqb_neq i j)) by (intro; apply J; symmetry; assumption). ring.
  Qed.
  Lemma W_eq i j : (i < n)%nat -> (j < n)%nat -> W i j <> c0 -> l i = l' j.
  Proof.
    intros I J N. destruct E' as (_ & EV'). cbn [fst snd] in *.
    assert (X : cmult (rtc (l i)) (W i j) = cmult (rtc (l' j)) (W i j)).
    { transitivity (csum n (fun b => cmult (csum n (fun a => cmult (cconj (V a i)) (H a b))) (V' b j))).
      - unfold W, mmult, dagger. rewrite <- csum_mult_l. apply csum_ext. intros b B. rewrite (H_left i b I B). ring.
      - transitivity (csum n (fun a => cmult (cconj (V a i)) (csum n (fun b => cmult (H a b) (V' b j))))).
        + transitivity (csum n (fun b => csum n (fun a => cmult (cmult (cconj (V a i)) (H a b)) (V' b j)))).
          * apply csum_ext. intros b _. symmetry. apply csum_mult_r.
          * rewrite csum_swap. apply csum_ext. intros a _. rewrite <- csum_mult_l. apply csum_ext. intros b _. ring.
        + unfold W, mmult, dagger. rewrite <- csum_mult_l. apply csum_ext. intros a A. rewrite (EV' a j A J). ring. }
    destruct (Req_dec (l i) (l' j)) as [Z|Z]; [exact Z|exfalso].
    assert (Y : cmult (rtc (l i - l' j)) (W i j) = c0).
    { transitivity (cminus (cmult (rtc (l i)) (W i j)) (cmult (rtc (l' j)) (W i j))).
      - apply Ceq; cbn; ring.
      - rewrite X. ring. }
    revert Y. apply cmult_nonzero; [|exact N]. intro Q. apply (f_equal re) in Q. cbn in Q. lra.
  Qed.
  Lemma l_inj i i' : (i < n)%nat -> (i' < n)%nat -> l i = l i' -> i = i'.
  Proof.
    intros I I' X. destruct (Nat.lt_trichotomy i i') as [Y|[Y|Y]]; [|exact Y|].
    - pose proof (SL i i' Y I'). lra.
    - pose proof (SL i' i Y I). lra.
  Qed.
  Lemma col_nonzero j : (j < n)%nat -> exists i, (i < n)%nat /\ W i j <> c0.
  Proof.
    intro J. destruct (rsum_nonzero n (fun a => cnorm2 (W a j))) as (i & I & X); [rewrite (col_one n W j W_unitary J); lra|].
    exists i. split; [exact I|]. intro Z. apply X. rewrite Z. apply cnorm2_0.
  Qed.
  Lemma row_nonzero i : (i < n)%nat -> exists j, (j < n)%nat /\ W i j <> c0.
  Proof.
    intro I. destruct (rsum_nonzero n (fun a => cnorm2 (W i a))) as (j & J & X); [rewrite (row_one n W i W_unitary I); lra|].
    exists j. split; [exact J|]. intro Z. apply X. rewrite Z. apply cnorm2_0.
  Qed.
  Lemma one_per_column i i' j : (i < n)%nat -> (i' < n)%nat -> (j < n)%nat -> W i j <> c0 -> W i' j <> c0 -> i = i'.
  Proof. intros I I' J X Y. apply l_inj; [exact I|exact I'|]. rewrite (W_eq i j I J X), (W_eq i' j I' J Y). reflexivity. Qed.
  Lemma W_diag : forall j i, (i < n)%nat -> (j < n)%nat -> W i j <> c0 -> i = j.
  Proof.
    intro j. induction j as [j IH] using lt_wf_ind. intros i I J X.
    destruct (Nat.lt_trichotomy i j) as [L|[L|L]]; [|exact L|]; exfalso.
    - destruct (col_nonzero i I) as (c & Cn & Y). assert (c = i) as -> by (apply (IH i L c Cn I Y)).
      pose proof (proj2 W_unitary i j I J) as O. unfold mmult, dagger, mid, delta in O. rewrite (proj2 (Nat.eqb_neq i j)) in O by lia.
      rewrite (csum_single n i) in O; [|exact I|].
      + revert O. apply cmult_nonzero; [apply conj_nonzero; exact Y|exact X].
      + intros a A N. destruct (c0_dec (W a j)) as [Z|Z]; [rewrite Z; ring|]. exfalso. apply N. exact (one_per_column a i j A I J Z X).
    - destruct (row_nonzero j J) as (c & Cn & Y). destruct (Nat.lt_trichotomy c j) as [M|[M|M]].
      + pose proof (IH c M j J Cn Y). lia.
      + subst c. pose proof (one_per_column i j j I J J X Y). lia.
      + pose proof (AL j c M Cn) as Q. rewrite <- (W_eq j c J Cn Y), <- (W_eq i j I J X) in Q. pose proof (SL j i L I). lra.
  Qed.
  Lemma same_moduli a j : (a < n)%nat -> (j < n)%nat -> cnorm2 (V' a j) = cnorm2 (V a j) /\ l' j = l j.
  Proof.
    intros A J. assert (W1 : cnorm2 (W j j) = 1).
    { rewrite <- (col_one n W j W_unitary J). symmetry. apply (f_equal re) with (x := rtc _) (y := rtc _).
      rewrite rtc_rsum. rewrite (csum_single n j (fun i => rtc (cnorm2 (W i j)))); [reflexivity|exact J|].
      intros i I N. destruct (c0_dec (W i j)) as [Z|Z]; [rewrite Z, cnorm2_0; reflexivity|]. exfalso. apply N. exact (W_diag j i I J Z). }
    split.
    - assert (X : V' a j = cmult (V a j) (W j j)).
      { transitivity (csum n (fun k => cmult (V a k) (W k j))).
        - symmetry. pose proof (mmult_assoc n V (dagger V) V' a j A J) as Y. unfold W. change (mmult n V (mmult n (dagger V) V') a j = V' a j).
          rewrite <- Y. destruct E as ((U1 & _) & _). cbn [snd] in U1.
          transitivity (mmult n mid V' a j); [exact (mmult_meq n _ _ _ _ U1 (meq_refl n V') a j A J)|exact (mmult_id_l n V' a j A J)].
        - apply (csum_single n j (fun k => cmult (V a k) (W k j))); [exact J|]. intros k K N. destruct (c0_dec (W k j)) as [Z|Z]; [rewrite Z; ring|]. exfalso. apply N. exact (W_diag j k K J Z). }
      rewrite X, cnorm2_mult, W1. ring.
    - symmetry. apply W_eq; [exact J|exact J|]. intro Z. rewrite Z, cnorm2_0 in W1. lra.
  Qed.
End Unique.

(** ** linear interpolation *)
Lemma incr_tail a x : increasing (a :: x) = true -> increasing x = true.
Proof. destruct x as [|b x]; [reflexivity|]. cbn [increasing]. destruct (Rlt_dec a b); [trivial|discriminate]. Qed.
Lemma incr_head a b x : increasing (a :: b :: x) = true -> a < b.
Proof. cbn [increasing]. destruct (Rlt_dec a b); [trivial|discriminate]. Qed.
Lemma chord_mix x0 x1 y0 y1 t : x0 < x1 -> x0 <= t <= x1 -> exists w, 0 <= w <= 1 /\ chord x0 x1 y0 y1 t = (1 - w) * y0 + w * y1.
Proof.
  intros L (A & B). exists ((t - x0) / (x1 - x0)). split.
  - split; [apply Rmult_le_pos; [lra|left; apply Rinv_0_lt_compat; lra]|]. apply Rmult_le_reg_r with (x1 - x0); [lra|]. field_simplify; lra.
  - unfold chord. ring.
Qed.
Lemma lin_at_between x : forall y t, increasing x = true -> List.length x = List.length y -> (2 <= List.length x)%nat ->
  hd 0 x <= t <= last x 0 ->
  exists i w, (S i < List.length y)%nat /\ nth i x 0 <= t <= nth (S i) x 0 /\ 0 <= w <= 1 /\ lin_at x y t = (1 - w) * nth i y 0 + w * nth (S i) y 0.
Proof.
  induction x as [|x0 x IH]; intros y t I Q L (A & B); [cbn in L; lia|].
  destruct x as [|x1 x]; [cbn in L; lia|]. destruct y as [|y0 [|y1 y]]; [cbn in Q; lia|cbn in Q; lia|].
  pose proof (incr_head _ _ _ I) as L01. cbn [hd] in A. destruct x as [|x2 x].
  - cbn [lin_at]. cbn [last] in B. destruct (chord_mix x0 x1 y0 y1 t L01 (conj A B)) as (w & W & X).
    exists 0%nat, w. split; [cbn; lia|]. split; [cbn; lra|]. split; [exact W|]. cbn [nth]. exact X.
  - change (lin_at (x0 :: x1 :: x2 :: x) (y0 :: y1 :: y) t) with (if Rlt_dec t x1 then chord x0 x1 y0 y1 t else lin_at (x1 :: x2 :: x) (y1 :: y) t).
    destruct (Rlt_dec t x1) as [T|T].
    + destruct (chord_mix x0 x1 y0 y1 t L01) as (w & W & X); [lra|]. exists 0%nat, w. split; [cbn; lia|]. split; [cbn; lra|]. split; [exact W|]. cbn [nth]. exact X.
    + destruct (IH (y1 :: y) t (incr_tail _ _ I)) as (i & w & J & T1 & W & X); [cbn in *; lia|cbn; lia|split; [cbn [hd]; lra|exact B]|].
      exists (S i), w. split; [cbn in *; lia|]. split; [exact T1|]. split; [exact W|exact X].
Qed.
Lemma incr_below x : forall i, increasing x = true -> (i < List.length x)%nat -> hd 0 x <= nth i x 0.
Proof.
  induction x as [|a x IH]; intros i I L; [cbn in L; lia|]. destruct i as [|i]; [cbn; lra|].
  destruct x as [|b x]; [cbn in L; lia|]. pose proof (incr_head _ _ _ I). pose proof (IH i (incr_tail _ _ I)) as X. cbn [nth hd] in *. cbn in L.
  pose proof (X ltac:(cbn; lia)). lra.
Qed.
Lemma incr_above x : forall i, increasing x = true -> (i < List.length x)%nat -> nth i x 0 <= last x 0.
Proof.
  induction x as [|a x IH]; intros i I L; [cbn in L; lia|]. destruct x as [|b x]; [destruct i; [cbn; lra|cbn in L; lia]|].
  change (last (a :: b :: x) 0) with (last (b :: x) 0). destruct i as [|i].
  - pose proof (incr_head _ _ _ I). pose proof (IH 0%nat (incr_tail _ _ I)) as X. cbn [nth] in *. pose proof (X ltac:(cbn; lia)). lra.
  - cbn [nth]. apply (IH i (incr_tail _ _ I)). cbn in *. lia.
Qed.
Lemma lin_at_node x : forall y i, increasing x = true -> List.length x = List.length y -> (2 <= List.length x)%nat -> (i < List.length x)%nat ->
  lin_at x y (nth i x 0) = nth i y 0.
Proof.
  induction x as [|x0 x IH]; intros y i I Q L J; [cbn in L; lia|].
  destruct x as [|x1 x]; [cbn in L; lia|]. destruct y as [|y0 [|y1 y]]; [cbn in Q; lia|cbn in Q; lia|].
  pose proof (incr_head _ _ _ I) as L01. destruct x as [|x2 x].
  - cbn [lin_at]. destruct i as [|[|i]]; [| |cbn in J; lia]; cbn [nth]; unfold chord; field; lra.
  - change (lin_at (x0 :: x1 :: x2 :: x) (y0 :: y1 :: y) (nth i (x0 :: x1 :: x2 :: x) 0)) with
      (if Rlt_dec (nth i (x0 :: x1 :: x2 :: x) 0) x1 then chord x0 x1 y0 y1 (nth i (x0 :: x1 :: x2 :: x) 0) else lin_at (x1 :: x2 :: x) (y1 :: y) (nth i (x0 :: x1 :: x2 :: x) 0)).
    destruct i as [|i].
    + cbn [nth]. destruct (Rlt_dec x0 x1); [|lra]. unfold chord. field. lra.
    + change (nth (S i) (x0 :: x1 :: x2 :: x) 0) with (nth i (x1 :: x2 :: x) 0).
      destruct (Rlt_dec (nth i (x1 :: x2 :: x) 0) x1) as [T|T].
      * exfalso. pose proof (incr_below (x1 :: x2 :: x) i (incr_tail _ _ I)) as X. cbn [hd] in X. cbn in J. pose proof (X ltac:(cbn; lia)). lra.
      * rewrite (IH (y1 :: y) i (incr_tail _ _ I)); [reflexivity|cbn in *; lia|cbn; lia|cbn in *; lia].
Qed.
