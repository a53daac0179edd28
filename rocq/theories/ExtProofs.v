(** Lemmas for C78 and C79. *)
From Coq Require Import Reals List Arith Bool ZArith Lia Lra.
From Verif Require Import CMatrix FlavorModel FlavorProofs FlavorEqn ExtModel.
Import ListNotations.
Open Scope R_scope.

(** elements of an operator between the states in the columns of [V] *)
Definition seen (n : nat) (V X : mat) : mat := mmult n (dagger V) (mmult n X V).

Lemma seen_meq n V V' X X' : meq n V V' -> meq n X X' -> meq n (seen n V X) (seen n V' X').
Proof. intros A B. apply mmult_meq; [apply dagger_meq; exact A|apply mmult_meq; assumption]. Qed.
Lemma seen_scale n V x X : meq n (seen n V (mscale x X)) (mscale x (seen n V X)).
Proof.
  unfold seen. eapply meq_trans; [apply mmult_meq; [apply meq_refl|apply mmult_scale_l]|]. apply mmult_scale_r.
Qed.
Lemma seen_plus n V X Y : meq n (seen n V (mplus X Y)) (mplus (seen n V X) (seen n V Y)).
Proof.
  unfold seen. eapply meq_trans; [apply mmult_meq; [apply meq_refl|apply mmult_plus_l]|]. apply mmult_plus_r.
Qed.
Lemma seen_rotated n V M : unitary n V -> meq n (seen n V (rotate_b1 n V M)) M.
Proof.
  intros [U1 U2]. unfold seen, rotate_b1.
  assert (U : meq n (mmult n (dagger V) V) mid) by (first [exact U1|exact U2]).
  eapply meq_trans; [apply meq_sym, mmult_assoc|].
  eapply meq_trans; [apply mmult_meq; [|apply meq_refl]; apply meq_sym, mmult_assoc|].
  eapply meq_trans; [apply mmult_assoc|]. eapply meq_trans; [apply mmult_meq; [|exact U]|apply mmult_id_r].
  eapply meq_trans; [apply meq_sym, mmult_assoc|]. eapply meq_trans; [apply mmult_meq; [exact U|apply meq_refl]|]. apply mmult_id_l.
Qed.
Lemma evolve_rotated n H t V M : meq n (evolve H t (rotate_b1 n V M)) (rotate_b1 n (turned H t V) M).
Proof.
  intros a b Ha Hb. unfold evolve, rotate_b1, mmult, dagger, turned. rewrite <- csum_mult_l. apply csum_ext. intros k Hk.
  rewrite conj_mult, cexp_conj.
  rewrite (csum_ext n (fun k0 => cmult (cmult (cexp (re (H a a) * t)) (V a k0)) (M k0 k)) (fun k0 => cmult (cexp (re (H a a) * t)) (cmult (V a k0) (M k0 k)))) by (intros; ring).
  rewrite csum_mult_l. replace ((re (H a a) - re (H b b)) * t) with (re (H a a) * t + - (re (H b b) * t)) by ring.
  rewrite <- cexp_plus. ring.
Qed.
Lemma seen_evolved n H t V M : unitary n V -> meq n (seen n (turned H t V) (evolve H t (rotate_b1 n V M))) M.
Proof.
  intro U. eapply meq_trans; [apply seen_meq; [apply meq_refl|apply evolve_rotated]|]. apply seen_rotated, turned_unitary, U.
Qed.

(** *** Mixing matrices *)
Lemma mixing_ext n th th' dl dl' order : (forall i j, th i j = th' i j) -> (forall i j, dl i j = dl' i j) ->
  mixing n th dl order = mixing n th' dl' order.
Proof.
  intros A B. induction order as [|[i j] rest IH]; [reflexivity|]. cbn [mixing]. rewrite IH, A, B. reflexivity.
Qed.
Lemma to_mass_ext order th th' dl dl' M : (forall i j, th i j = th' i j) -> (forall i j, dl i j = dl' i j) ->
  to_mass order th dl M = to_mass order th' dl' M.
Proof. intros A B. unfold to_mass. rewrite (mixing_ext 3 th th' dl dl' order A B). reflexivity. Qed.
Lemma rot_zero n i j dl : i <> j -> meq n (rot i j 0 dl) mid.
Proof.
  intros N a b _ _. unfold rot, mid, delta. rewrite sin_0, cos_0.
  destruct (Nat.eqb_spec a i) as [->|Na].
  - destruct (Nat.eqb_spec b i) as [->|Nb]; [rewrite Nat.eqb_refl; reflexivity|].
    rewrite (proj2 (Nat.eqb_neq i b)) by congruence. destruct (Nat.eqb b j); [apply Ceq; cbn; ring|reflexivity].
  - destruct (Nat.eqb_spec a j) as [->|Nj]; [|reflexivity].
    destruct (Nat.eqb_spec b i) as [->|Nb].
    + rewrite (proj2 (Nat.eqb_neq j i)) by congruence. apply Ceq; cbn; ring.
    + destruct (Nat.eqb_spec b j) as [->|Nbj]; [rewrite Nat.eqb_refl; reflexivity|]. reflexivity.
Qed.
Lemma mixing_none n th dl order : pairs_ok n order -> (forall i j, In (i, j) order -> th i j = 0) -> meq n (mixing n th dl order) mid.
Proof.
  induction order as [|[i j] rest IH]; intros P Z; [apply meq_refl|]. cbn [mixing].
  inversion P as [|x y (_ & _ & Nij) P']; subst. cbn [fst snd] in Nij.
  rewrite (Z i j) by (left; reflexivity).
  eapply meq_trans; [apply mmult_meq; [apply rot_zero; exact Nij|apply IH; [exact P'|]]|apply mmult_id_l].
  intros a b H. apply Z. right. exact H.
Qed.
Lemma mixing_one n th dl order p q : pairs_ok n order -> NoDup order -> In (p, q) order ->
  (forall i j, In (i, j) order -> (i, j) <> (p, q) -> th i j = 0) -> meq n (mixing n th dl order) (rot p q (th p q) (dl p q)).
Proof.
  induction order as [|[i j] rest IH]; intros P D I Z; [destruct I|]. cbn [mixing]. inversion D as [|x y N D']; subst.
  inversion P as [|x y (_ & _ & Nij) P']; subst. cbn [fst snd] in Nij.
  assert (Rest : (i, j) <> (p, q) -> meq n (mmult n (rot i j (th i j) (dl i j)) (mixing n th dl rest)) (rot p q (th p q) (dl p q))).
  { intro Ne. rewrite (Z i j) by (try (left; reflexivity); assumption).
    eapply meq_trans; [apply mmult_meq; [apply rot_zero; exact Nij|apply IH]|apply mmult_id_l]; auto.
    - destruct I as [C|I]; [congruence|exact I].
    - intros a b H. apply Z. right. exact H. }
  destruct (Nat.eq_dec i p) as [->|Ni]; [destruct (Nat.eq_dec j q) as [->|Nj]|]; [|apply Rest; congruence|apply Rest; congruence].
  eapply meq_trans; [apply mmult_meq; [apply meq_refl|apply mixing_none; [exact P'|]]|apply mmult_id_r].
  intros a b H. apply Z; [right; exact H|]. intro C. rewrite C in H. contradiction.
Qed.

(** *** Histories of the second extension *)
Lemma set2_same f i j x : set2 f i j x i j = x.
Proof. unfold set2. rewrite !Nat.eqb_refl. reflexivity. Qed.
Lemma lv_phase_fields i j x o : lv_th (lv_phase i j x o) = lv_th o /\ lv_op (lv_phase i j x o) = lv_op o /\ lv_pow (lv_phase i j x o) = lv_pow o /\
  lv_evol (lv_phase i j x o) = lv_evol o /\ lv_nt (lv_phase i j x o) = lv_nt o.
Proof. repeat split. Qed.
Definition kept (o o' : lv) : Prop := lv_th o' = lv_th o /\ lv_op o' = lv_op o /\ lv_pow o' = lv_pow o /\ lv_evol o' = lv_evol o /\ lv_nt o' = lv_nt o.
Lemma kept_trans a b c : kept a b -> kept b c -> kept a c.
Proof. unfold kept. intuition congruence. Qed.
Lemma negate_kept o : kept o (negate_phases o).
Proof. repeat split. Qed.
Lemma negate_at o i j : lv_dl (negate_phases o) i j =
  if existsb (fun p => Nat.eqb i (fst p) && Nat.eqb j (snd p)) [(0, 1); (0, 2); (1, 2)]%nat then - lv_dl o i j else lv_dl o i j.
Proof.
  unfold negate_phases. cbn [fold_left fst snd lv_phase lv_dl existsb]. unfold set2.
  destruct i as [|[|i]]; destruct j as [|[|[|j]]]; reflexivity.
Qed.
Lemma cp_fix_twice rho o : kept o (cp_fix rho (cp_fix rho o)) /\ forall i j, lv_dl (cp_fix rho (cp_fix rho o)) i j = lv_dl o i j.
Proof.
  unfold cp_fix. destruct (anti_type (lv_nt o) rho) eqn:A; rewrite ?A.
  - destruct (negate_kept o) as (_ & _ & _ & _ & En). rewrite En, A. split.
    + eapply kept_trans; apply negate_kept.
    + intros i j. rewrite !negate_at. destruct (existsb _ _); ring.
  - split; [repeat split|reflexivity].
Qed.
Lemma fold_kept {X} (f : lv -> X -> lv) l : (forall o x, kept o (f o x) /\ forall i j, lv_dl (f o x) i j = lv_dl o i j) ->
  forall o, kept o (fold_left f l o) /\ forall i j, lv_dl (fold_left f l o) i j = lv_dl o i j.
Proof.
  intro H. induction l as [|x l IH]; intro o; [split; [repeat split|reflexivity]|]. cbn [fold_left].
  destruct (H o x) as [K D], (IH (f o x)) as [K' D']. split; [eapply kept_trans; eassumption|]. intros i j. rewrite D'. apply D.
Qed.
Lemma ini_kept o : kept o (ini_flavours o) /\ forall i j, lv_dl (ini_flavours o) i j = lv_dl o i j.
Proof.
  unfold ini_flavours. apply fold_kept. intros o' rho. apply fold_kept. intros o'' _. apply cp_fix_twice.
Qed.
Lemma lv_initial_keeps o : kept o (lv_initial o) /\ (forall i j, lv_dl (lv_initial o) i j = lv_dl o i j) /\ lv_set (lv_initial o) = lv_set o.
Proof.
  unfold lv_initial. destruct (ini_kept o) as [K D]. split; [exact K|]. split; [exact D|reflexivity].
Qed.

(** *** Hermitian operators *)
Lemma mutau_hermitian eps : hermitian 3 (mutau eps).
Proof. intros a b _ _. unfold mutau. destruct a as [|[|[|a]]]; destruct b as [|[|[|b]]]; apply Ceq; cbn; ring. Qed.
Lemma lv_matrix_hermitian e m : hermitian 3 (lv_matrix e m).
Proof. intros a b _ _. unfold lv_matrix. destruct a as [|[|[|a]]]; destruct b as [|[|[|b]]]; apply Ceq; cbn; ring. Qed.

(** *** Rates of the contents *)
Lemma expect_seen n V P X k : frame n V P -> (k < n)%nat -> expect n (P k) X = re (seen n V X k k).
Proof.
  intros F Hk. unfold expect. rewrite (trace_meq n _ (mmult n (outer (fun a => V a k)) X)).
  2:{ apply mmult_meq; [apply F; exact Hk|apply meq_refl]. }
  f_equal. unfold trace, mmult, outer, seen, mmult, dagger.
  rewrite (csum_ext n _ (fun i => csum n (fun j => cmult (cconj (V j k)) (cmult (X j i) (V i k))))) by (intros; apply csum_ext; intros; ring).
  rewrite csum_swap. apply csum_ext. intros a Ha. rewrite csum_mult_l. reflexivity.
Qed.
Lemma seen_mult n V X Y : unitary n V -> meq n (seen n V (mmult n X Y)) (mmult n (seen n V X) (seen n V Y)).
Proof.
  intros [A B]. assert (U : meq n (mmult n V (dagger V)) mid) by (first [exact A|exact B]).
  unfold seen. apply meq_sym.
  eapply meq_trans; [apply mmult_assoc|]. apply mmult_meq; [apply meq_refl|].
  eapply meq_trans; [apply mmult_assoc|]. eapply meq_trans; [|apply meq_sym, mmult_assoc]. apply mmult_meq; [apply meq_refl|].
  eapply meq_trans; [apply meq_sym, mmult_assoc|]. eapply meq_trans; [apply mmult_meq; [exact U|apply meq_refl]|]. apply mmult_id_l.
Qed.
Lemma seen_lin n V X Y z : meq n (seen n V (fun i j => cmult z (cminus (X i j) (Y i j)))) (fun i j => cmult z (cminus (seen n V X i j) (seen n V Y i j))).
Proof.
  intros i j Hi Hj. unfold seen, mmult.
  rewrite (csum_ext n _ (fun k => cmult z (cminus (cmult (dagger V i k) (csum n (fun k0 => cmult (X k k0) (V k0 j)))) (cmult (dagger V i k) (csum n (fun k0 => cmult (Y k k0) (V k0 j))))))).
  - rewrite csum_mult_l. f_equal. unfold cminus. rewrite csum_plus. f_equal.
    rewrite (csum_ext n _ (fun k => cmult (rtc (-1)) (cmult (dagger V i k) (csum n (fun k0 => cmult (Y k k0) (V k0 j)))))) by (intros; apply Ceq; cbn; ring).
    rewrite csum_mult_l. apply Ceq; cbn; ring.
  - intros k Hk. rewrite (csum_ext n (fun k0 => cmult (cmult z (cminus (X k k0) (Y k k0))) (V k0 j)) (fun k0 => cmult z (cplus (cmult (X k k0) (V k0 j)) (cmult (rtc (-1)) (cmult (Y k k0) (V k0 j)))))) by (intros; apply Ceq; cbn; ring).
    rewrite csum_mult_l, csum_plus, csum_mult_l. apply Ceq; cbn; ring.
Qed.
Lemma coherent_seen n V Q rho : unitary n V -> meq n (seen n V (coherent n Q rho)) (coherent n (seen n V Q) (seen n V rho)).
Proof.
  intros U i j Hi Hj. unfold coherent at 1. rewrite (seen_lin n V (mmult n Q rho) (mmult n rho Q) (mkC 0 (-1)) i j Hi Hj).
  rewrite (seen_mult n V Q rho U i j Hi Hj), (seen_mult n V rho Q U i j Hi Hj). reflexivity.
Qed.
(** a flavour the operator does not touch keeps its content *)
Lemma untouched n V P Q rho k : unitary n V -> frame n V P -> (k < n)%nat ->
  (forall j, (j < n)%nat -> seen n V Q k j = c0 /\ seen n V Q j k = c0) -> expect n (P k) (coherent n Q rho) = 0.
Proof.
  intros U F Hk Z. rewrite (expect_seen n V P _ k F Hk), (coherent_seen n V Q rho U k k Hk Hk). unfold coherent, mmult.
  rewrite !csum_zero; [cbn; ring| |]; intros i Hi; destruct (Z i Hi) as [A B]; rewrite ?A, ?B; ring.
Qed.

Lemma rev_case {X} (l : list X) : l = [] \/ exists r e, l = r ++ [e].
Proof. destruct l as [|e r _] using rev_ind; [left; reflexivity|right; eauto]. Qed.
