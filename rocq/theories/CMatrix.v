(** Complex numbers and finite matrices over the reals, as far as the flavour
    content of a density matrix needs them.  A matrix is a function of two
    indices, of which only those below the dimension [n] count. *)
From Coq Require Import Reals Lra Lia Arith Ring.
Open Scope R_scope.

Record C := mkC { re : R; im : R }.

Definition c0 : C := mkC 0 0.
Definition c1 : C := mkC 1 0.
Definition cplus (a b : C) := mkC (re a + re b) (im a + im b).
Definition cmult (a b : C) := mkC (re a * re b - im a * im b) (re a * im b + im a * re b).
Definition copp (a : C) := mkC (- re a) (- im a).
Definition cminus (a b : C) := cplus a (copp b).
Definition cconj (a : C) := mkC (re a) (- im a).
Definition rtc (x : R) := mkC x 0.
(** |a|^2 *)
Definition cnorm2 (a : C) : R := re a * re a + im a * im a.
(** e^{ix} *)
Definition cexp (x : R) : C := mkC (cos x) (sin x).

Declare Scope C_scope.
Delimit Scope C_scope with C.
Bind Scope C_scope with C.
Notation "a + b" := (cplus a b) : C_scope.
Notation "a * b" := (cmult a b) : C_scope.
Notation "a - b" := (cminus a b) : C_scope.
Notation "- a" := (copp a) : C_scope.

Fixpoint csum (n : nat) (f : nat -> C) : C :=
  match n with O => c0 | S m => cplus (csum m f) (f m) end.

Fixpoint rsum (n : nat) (f : nat -> R) : R :=
  match n with O => 0 | S m => rsum m f + f m end.

Definition mat := nat -> nat -> C.
Definition delta (i j : nat) : C := if Nat.eqb i j then c1 else c0.
Definition mid : mat := delta.
Definition mzero : mat := fun _ _ => c0.
Definition mplus (A B : mat) : mat := fun i j => cplus (A i j) (B i j).
Definition mscale (x : R) (A : mat) : mat := fun i j => cmult (rtc x) (A i j).
Definition mmult (n : nat) (A B : mat) : mat := fun i j => csum n (fun k => cmult (A i k) (B k j)).
Definition dagger (A : mat) : mat := fun i j => cconj (A j i).
Definition trace (n : nat) (A : mat) : C := csum n (fun i => A i i).
Definition meq (n : nat) (A B : mat) : Prop := forall i j, (i < n)%nat -> (j < n)%nat -> A i j = B i j.
Definition unitary (n : nat) (V : mat) : Prop :=
  meq n (mmult n V (dagger V)) mid /\ meq n (mmult n (dagger V) V) mid.
Definition hermitian (n : nat) (A : mat) : Prop := meq n (dagger A) A.
Fixpoint msum (n : nat) (f : nat -> mat) : mat :=
  match n with O => mzero | S m => mplus (msum m f) (f m) end.

(** ** Numbers *)
Lemma Ceq a b : re a = re b -> im a = im b -> a = b.
Proof. destruct a, b. cbn. intros -> ->. reflexivity. Qed.

Ltac ceq := intros; apply Ceq; cbn; ring.

Lemma C_ring : ring_theory c0 c1 cplus cmult cminus copp eq.
Proof. constructor; ceq. Qed.
Add Ring Cring : C_ring.

Lemma conj_plus a b : cconj (a + b) = (cconj a + cconj b)%C. Proof. ceq. Qed.
Lemma conj_mult a b : cconj (a * b) = (cconj a * cconj b)%C. Proof. ceq. Qed.
Lemma conj_conj a : cconj (cconj a) = a. Proof. ceq. Qed.
Lemma conj_0 : cconj c0 = c0. Proof. ceq. Qed.
Lemma conj_1 : cconj c1 = c1. Proof. ceq. Qed.
Lemma conj_rtc x : cconj (rtc x) = rtc x. Proof. ceq. Qed.
Lemma mult_conj a : (a * cconj a)%C = rtc (cnorm2 a). Proof. unfold cnorm2. ceq. Qed.
Lemma cexp_0 : cexp 0 = c1. Proof. unfold cexp. rewrite cos_0, sin_0. reflexivity. Qed.
Lemma cexp_plus x y : (cexp x * cexp y)%C = cexp (x + y).
Proof. apply Ceq; cbn; rewrite ?cos_plus, ?sin_plus; ring. Qed.
Lemma cexp_conj x : cconj (cexp x) = cexp (- x).
Proof. apply Ceq; cbn; rewrite ?cos_neg, ?sin_neg; ring. Qed.
Lemma cexp_unit x : (cexp x * cconj (cexp x))%C = c1.
Proof. rewrite cexp_conj, cexp_plus, Rplus_opp_r. apply cexp_0. Qed.
Lemma rtc_plus x y : rtc (x + y) = (rtc x + rtc y)%C. Proof. ceq. Qed.
Lemma rtc_mult x y : rtc (x * y) = (rtc x * rtc y)%C. Proof. ceq. Qed.
Lemma rtc_0 : rtc 0 = c0. Proof. reflexivity. Qed.
Lemma rtc_1 : rtc 1 = c1. Proof. reflexivity. Qed.
Lemma rtc_opp x : rtc (- x) = (- rtc x)%C. Proof. ceq. Qed.
Lemma cnorm2_pos a : 0 <= cnorm2 a. Proof. unfold cnorm2. nra. Qed.

(** ** Sums *)
Lemma csum_ext n f g : (forall i, (i < n)%nat -> f i = g i) -> csum n f = csum n g.
Proof. induction n as [|n IH]; intro H; cbn; [reflexivity|]. rewrite IH, H; auto. Qed.
Lemma csum_zero n f : (forall i, (i < n)%nat -> f i = c0) -> csum n f = c0.
Proof. induction n as [|n IH]; intro H; cbn; [reflexivity|]. rewrite IH, H by auto. ring. Qed.
Lemma csum_plus n f g : csum n (fun i => (f i + g i)%C) = (csum n f + csum n g)%C.
Proof. induction n as [|n IH]; cbn; [ring|]. rewrite IH. ring. Qed.
Lemma csum_mult_l n a f : csum n (fun i => (a * f i)%C) = (a * csum n f)%C.
Proof. induction n as [|n IH]; cbn; [ring|]. rewrite IH. ring. Qed.
Lemma csum_mult_r n a f : csum n (fun i => (f i * a)%C) = (csum n f * a)%C.
Proof. induction n as [|n IH]; cbn; [ring|]. rewrite IH. ring. Qed.
Lemma csum_swap n m f :
  csum n (fun i => csum m (fun j => f i j)) = csum m (fun j => csum n (fun i => f i j)).
Proof.
  induction n as [|n IH]; cbn.
  - symmetry. apply csum_zero. reflexivity.
  - rewrite IH. rewrite <- csum_plus. reflexivity.
Qed.
Lemma csum_conj n f : cconj (csum n f) = csum n (fun i => cconj (f i)).
Proof. induction n as [|n IH]; cbn [csum]; [apply conj_0|]. rewrite conj_plus, IH. reflexivity. Qed.
Lemma csum_single n k f : (k < n)%nat -> (forall i, (i < n)%nat -> i <> k -> f i = c0) -> csum n f = f k.
Proof.
  induction n as [|n IH]; intros L H; [lia|]. cbn. destruct (Nat.eq_dec k n) as [->|N].
  - rewrite csum_zero; [ring|]. intros i Hi. apply H; lia.
  - rewrite IH; [|lia|intros; apply H; lia]. rewrite (H n) by lia. ring.
Qed.
Lemma csum_re n f : re (csum n f) = rsum n (fun i => re (f i)).
Proof. induction n as [|n IH]; cbn; [reflexivity|]. rewrite IH. reflexivity. Qed.
Lemma csum_im n f : im (csum n f) = rsum n (fun i => im (f i)).
Proof. induction n as [|n IH]; cbn; [reflexivity|]. rewrite IH. reflexivity. Qed.
Lemma rsum_ext n f g : (forall i, (i < n)%nat -> f i = g i) -> rsum n f = rsum n g.
Proof. induction n as [|n IH]; intro H; cbn; [reflexivity|]. rewrite IH, H; auto. Qed.
Lemma rsum_pos n f : (forall i, (i < n)%nat -> 0 <= f i) -> 0 <= rsum n f.
Proof.
  induction n as [|n IH]; intro H; cbn; [lra|]. pose proof (H n (Nat.lt_succ_diag_r n)).
  assert (0 <= rsum n f) by (apply IH; auto). lra.
Qed.
Lemma rsum_le n f g : (forall i, (i < n)%nat -> f i <= g i) -> rsum n f <= rsum n g.
Proof.
  induction n as [|n IH]; intro H; cbn; [lra|]. pose proof (H n (Nat.lt_succ_diag_r n)).
  assert (rsum n f <= rsum n g) by (apply IH; auto). lra.
Qed.
Lemma rsum_plus n f g : rsum n (fun i => f i + g i) = rsum n f + rsum n g.
Proof. induction n as [|n IH]; cbn; [ring|]. rewrite IH. ring. Qed.
Lemma rsum_scal n a f : rsum n (fun i => a * f i) = a * rsum n f.
Proof. induction n as [|n IH]; cbn; [ring|]. rewrite IH. ring. Qed.
Lemma rsum_swap n m f :
  rsum n (fun i => rsum m (fun j => f i j)) = rsum m (fun j => rsum n (fun i => f i j)).
Proof.
  induction n as [|n IH]; cbn.
  - induction m as [|m IH]; cbn; [reflexivity|]. rewrite <- IH. ring.
  - rewrite IH. rewrite <- rsum_plus. reflexivity.
Qed.
Lemma rsum_term n f k : (k < n)%nat -> (forall i, (i < n)%nat -> 0 <= f i) -> f k <= rsum n f.
Proof.
  induction n as [|n IH]; intros L H; [lia|]. cbn.
  assert (P : 0 <= rsum n f) by (apply rsum_pos; auto).
  destruct (Nat.eq_dec k n) as [->|N]; [lra|].
  assert (f k <= rsum n f) by (apply IH; [lia|auto]). pose proof (H n (Nat.lt_succ_diag_r n)). lra.
Qed.
Lemma rtc_rsum n f : rtc (rsum n f) = csum n (fun i => rtc (f i)).
Proof. induction n as [|n IH]; cbn; [reflexivity|]. rewrite rtc_plus, IH. reflexivity. Qed.

(** ** Matrices *)
Lemma meq_refl n A : meq n A A. Proof. intros i j _ _. reflexivity. Qed.
Lemma meq_sym n A B : meq n A B -> meq n B A.
Proof. intros H i j Hi Hj. symmetry. apply H; assumption. Qed.
Lemma meq_trans n A B D : meq n A B -> meq n B D -> meq n A D.
Proof. intros H1 H2 i j Hi Hj. rewrite H1 by assumption. apply H2; assumption. Qed.
Lemma mmult_meq n A A' B B' : meq n A A' -> meq n B B' -> meq n (mmult n A B) (mmult n A' B').
Proof.
  intros HA HB i j Hi Hj. unfold mmult. apply csum_ext. intros k Hk. rewrite HA, HB by assumption. reflexivity.
Qed.
Lemma mplus_meq n A A' B B' : meq n A A' -> meq n B B' -> meq n (mplus A B) (mplus A' B').
Proof. intros HA HB i j Hi Hj. unfold mplus. rewrite HA, HB by assumption. reflexivity. Qed.
Lemma mscale_meq n x A A' : meq n A A' -> meq n (mscale x A) (mscale x A').
Proof. intros HA i j Hi Hj. unfold mscale. rewrite HA by assumption. reflexivity. Qed.
Lemma dagger_meq n A A' : meq n A A' -> meq n (dagger A) (dagger A').
Proof. intros HA i j Hi Hj. unfold dagger. rewrite HA by assumption. reflexivity. Qed.
Lemma trace_meq n A A' : meq n A A' -> trace n A = trace n A'.
Proof. intro H. apply csum_ext. intros i Hi. apply H; assumption. Qed.
Lemma mmult_assoc n A B D : meq n (mmult n (mmult n A B) D) (mmult n A (mmult n B D)).
Proof.
  intros i j _ _. unfold mmult.
  rewrite (csum_ext n _ (fun k => csum n (fun l => (A i l * B l k * D k j)%C))).
  2:{ intros k _. rewrite <- csum_mult_r. reflexivity. }
  rewrite csum_swap. apply csum_ext. intros l _. rewrite <- csum_mult_l. apply csum_ext. intros k _. ring.
Qed.
Lemma mmult_id_l n A : meq n (mmult n mid A) A.
Proof.
  intros i j Hi _. unfold mmult. rewrite (csum_single n i).
  - unfold mid, delta. rewrite Nat.eqb_refl. ring.
  - exact Hi.
  - intros k _ K. unfold mid, delta. rewrite (proj2 (Nat.eqb_neq i k)) by auto. ring.
Qed.
Lemma mmult_id_r n A : meq n (mmult n A mid) A.
Proof.
  intros i j _ Hj. unfold mmult. rewrite (csum_single n j).
  - unfold mid, delta. rewrite Nat.eqb_refl. ring.
  - exact Hj.
  - intros k _ K. unfold mid, delta. rewrite (proj2 (Nat.eqb_neq k j)) by auto. ring.
Qed.
Lemma dagger_mult n A B : meq n (dagger (mmult n A B)) (mmult n (dagger B) (dagger A)).
Proof.
  intros i j _ _. unfold dagger, mmult. rewrite csum_conj. apply csum_ext. intros k _. rewrite conj_mult. ring.
Qed.
Lemma dagger_dagger n A : meq n (dagger (dagger A)) A.
Proof. intros i j _ _. unfold dagger. apply conj_conj. Qed.
Lemma dagger_id n : meq n (dagger mid) mid.
Proof.
  intros i j _ _. unfold dagger, mid, delta. rewrite Nat.eqb_sym. destruct (Nat.eqb i j); [apply conj_1|apply conj_0].
Qed.
Lemma trace_cycle n A B : trace n (mmult n A B) = trace n (mmult n B A).
Proof.
  unfold trace, mmult. rewrite csum_swap. apply csum_ext. intros i _. apply csum_ext. intros j _. ring.
Qed.
Lemma trace_plus n A B : trace n (mplus A B) = (trace n A + trace n B)%C.
Proof. apply csum_plus. Qed.
Lemma trace_scale n x A : trace n (mscale x A) = (rtc x * trace n A)%C.
Proof. unfold trace, mscale. apply csum_mult_l. Qed.
Lemma trace_dagger n A : trace n (dagger A) = cconj (trace n A).
Proof. unfold trace. rewrite csum_conj. reflexivity. Qed.
Lemma mmult_plus_l n A B D : meq n (mmult n (mplus A B) D) (mplus (mmult n A D) (mmult n B D)).
Proof. intros i j _ _. unfold mmult, mplus. rewrite <- csum_plus. apply csum_ext. intros. ring. Qed.
Lemma mmult_plus_r n A B D : meq n (mmult n D (mplus A B)) (mplus (mmult n D A) (mmult n D B)).
Proof. intros i j _ _. unfold mmult, mplus. rewrite <- csum_plus. apply csum_ext. intros. ring. Qed.
Lemma mmult_scale_l n x A D : meq n (mmult n (mscale x A) D) (mscale x (mmult n A D)).
Proof. intros i j _ _. unfold mmult, mscale. rewrite <- csum_mult_l. apply csum_ext. intros. ring. Qed.
Lemma mmult_scale_r n x A D : meq n (mmult n D (mscale x A)) (mscale x (mmult n D A)).
Proof. intros i j _ _. unfold mmult, mscale. rewrite <- csum_mult_l. apply csum_ext. intros. ring. Qed.
Lemma msum_at m f i j : msum m f i j = csum m (fun k => f k i j).
Proof. induction m as [|m IH]; cbn; [reflexivity|]. unfold mplus. rewrite IH. reflexivity. Qed.
Lemma trace_msum n m f : trace n (msum m f) = csum m (fun k => trace n (f k)).
Proof.
  induction m as [|m IH]; cbn; [apply csum_zero; reflexivity|]. rewrite trace_plus, IH. reflexivity.
Qed.
Lemma mmult_msum_l n m f D : meq n (mmult n (msum m f) D) (msum m (fun k => mmult n (f k) D)).
Proof.
  intros i j _ _. rewrite msum_at. unfold mmult.
  rewrite (csum_ext n _ (fun k => csum m (fun l => (f l i k * D k j)%C))).
  - apply csum_swap.
  - intros k _. rewrite msum_at, <- csum_mult_r. reflexivity.
Qed.
Lemma mmult_msum_r n m f D : meq n (mmult n D (msum m f)) (msum m (fun k => mmult n D (f k))).
Proof.
  intros i j _ _. rewrite msum_at. unfold mmult.
  rewrite (csum_ext n _ (fun k => csum m (fun l => (D i k * f l k j)%C))).
  - apply csum_swap.
  - intros k _. rewrite msum_at, <- csum_mult_l. reflexivity.
Qed.
Lemma msum_meq n m f g : (forall k, (k < m)%nat -> meq n (f k) (g k)) -> meq n (msum m f) (msum m g).
Proof. intros H i j Hi Hj. rewrite !msum_at. apply csum_ext. intros k Hk. apply H; assumption. Qed.

(** ** Unitary matrices *)
Lemma unitary_id n : unitary n mid.
Proof.
  split.
  - eapply meq_trans; [apply mmult_id_l|apply dagger_id].
  - eapply meq_trans; [apply mmult_id_r|apply dagger_id].
Qed.
Lemma unitary_dagger n V : unitary n V -> unitary n (dagger V).
Proof.
  intros (A & B). split.
  - eapply meq_trans; [apply mmult_meq; [apply meq_refl|apply dagger_dagger]|exact B].
  - eapply meq_trans; [apply mmult_meq; [apply dagger_dagger|apply meq_refl]|exact A].
Qed.
Lemma cancel_mid n A B D E : meq n (mmult n B D) mid ->
  meq n (mmult n (mmult n A B) (mmult n D E)) (mmult n A E).
Proof.
  intro H. eapply meq_trans; [apply mmult_assoc|]. apply mmult_meq; [apply meq_refl|].
  eapply meq_trans; [apply meq_sym, mmult_assoc|]. eapply meq_trans; [|apply mmult_id_l].
  apply mmult_meq; [exact H|apply meq_refl].
Qed.
Lemma unitary_mult n V W : unitary n V -> unitary n W -> unitary n (mmult n V W).
Proof.
  intros (A1 & B1) (A2 & B2). split.
  - eapply meq_trans; [apply mmult_meq; [apply meq_refl|apply dagger_mult]|].
    eapply meq_trans; [apply cancel_mid; exact A2|]. exact A1.
  - eapply meq_trans; [apply mmult_meq; [apply dagger_mult|apply meq_refl]|].
    eapply meq_trans; [apply cancel_mid; exact B1|]. exact B2.
Qed.
Lemma unitary_meq n V W : meq n V W -> unitary n V -> unitary n W.
Proof.
  intros E (A & B). apply meq_sym in E. split.
  - eapply meq_trans; [|exact A]. apply mmult_meq; [exact E|apply dagger_meq; exact E].
  - eapply meq_trans; [|exact B]. apply mmult_meq; [apply dagger_meq; exact E|exact E].
Qed.
