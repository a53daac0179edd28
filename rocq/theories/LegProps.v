(** C93: a way in pieces. *)
From Coq Require Import Reals List Arith Bool Lia Lra.
From Verif Require Import Err CMatrix FlavorModel FlavorProofs FlavorProps AvgProofs.
From Verif Require Import TauModel XsModel XsProofs IntModel IntProofs IntLayoutProofs IntProps SuperModel SuperProofs SuperProps PosProofs PosProps LegModel.
Import ListNotations.
Local Open Scope R_scope.

(** positions [xs] in order between [a] and [b] *)
Fixpoint between (a b : R) (xs : list R) : Prop :=
  match xs with [] => a <= b | x :: xs' => a <= x /\ between x b xs' end.
Lemma between_le a b xs : between a b xs -> a <= b.
Proof. revert a. induction xs as [|x xs IH]; cbn; intros a H; [exact H|]. destruct H as [H1 H2]. specialize (IH x H2). lra. Qed.

Section Pieces.
Context {A : Type}.
Variable n : nat.
Variable mat_of : vec -> mat.
Variable dot : vec -> vec -> R.
Hypothesis su : su_repr n mat_of dot.
Variables inter osc : bool.
Variable tb : itables.
Variables rne ne nr : nat.
Variable conf : A -> iconf.
Variable ham : A -> R -> nat -> nat -> mat.
Variable proj : R -> nat -> nat -> nat -> vec.

(** A proper medium: what C90 asks at every clock. *)
Definition proper (a : A) : Prop := forall s,
  setup n mat_of tb rne ne nr s s (fun u => ham a u) proj (fun _ => conf a).
Definition proper_leg (l : leg A) : Prop := l_ini l <= l_fin l /\ forall x, l_ini l <= x <= l_fin l -> proper (l_at l x).

Lemma proper_setup m t0 t1 : t0 <= t1 -> (forall s, t0 <= s <= t1 -> proper (m s)) ->
  setup n mat_of tb rne ne nr t0 t1 (fun s => ham (m s) s) proj (fun s => conf (m s)).
Proof.
  intros L P. destruct (P t0 ltac:(lra) t0) as [T Pd _ _ _]. constructor; [exact T|exact Pd|..].
  - intros s S. destruct (P s S s) as [_ _ C _ _]. apply (C s). lra.
  - intros s r f e S. destruct (P s S s) as [_ _ _ C _]. apply (C s). lra.
  - intros s r e S. destruct (P s S s) as [_ _ _ _ C]. apply (C s). lra.
Qed.
Lemma leg_setup t l : proper_leg l -> setup n mat_of tb rne ne nr t (after t l) (fun s => ham (seen t l s) s) proj (fun s => conf (seen t l s)).
Proof.
  intros [L P]. apply proper_setup; [unfold after; lra|]. intros s S. apply P. unfold offset, after in *. lra.
Qed.

Notation journey := (journey n mat_of dot inter osc tb rne ne nr conf ham proj).
Notation obeys := (obeys n mat_of dot inter osc tb rne ne nr conf ham proj).
Notation same := (same n mat_of ne nr).

Lemma same_refl x : same x x.
Proof. intros e r _ _. apply meq_refl. Qed.
Lemma same_sym x y : same x y -> same y x.
Proof. intros H e r He Hr. apply meq_sym, H; assumption. Qed.
Lemma same_trans x y z : same x y -> same y z -> same x z.
Proof. intros H K e r He Hr. eapply meq_trans; [apply H|apply K]; assumption. Qed.

Lemma obeys_ext m m' t0 t1 st : (forall s, t0 <= s <= t1 -> m s = m' s) -> obeys m t0 t1 st -> obeys m' t0 t1 st.
Proof. intros E (old & fo & H). exists old, fo. intros s e r S He Hr. rewrite <- (E s S). apply H; assumption. Qed.
Lemma obeys_part m t0 t1 u0 u1 st : t0 <= u0 -> u1 <= t1 -> obeys m t0 t1 st -> obeys m u0 u1 st.
Proof. intros L1 L2 (old & fo & H). exists old, fo. intros s e r S. apply H. lra. Qed.
Lemma obeys_unique m t0 t1 st st' : t0 <= t1 -> (forall s, t0 <= s <= t1 -> proper (m s)) -> obeys m t0 t1 st -> obeys m t0 t1 st' ->
  same (st t0) (st' t0) -> forall s, t0 <= s <= t1 -> same (st s) (st' s).
Proof.
  intros L P (old & fo & H) (old' & fo' & H') I s S e r He Hr.
  apply (c90_unique n mat_of dot su inter osc tb rne ne nr t0 t1 _ proj _ (proper_setup m t0 t1 L P) old old' fo fo' st st' L); try assumption.
  intros u e2 r2 U E2 R2. split; [apply H|apply H']; assumption.
Qed.

(** What is met on a leg depends on how far it has gone, not on the clock. *)
Theorem c93_position t (l : leg A) d : seen t l (t + d) = l_at l (l_ini l + d).
Proof. unfold seen, offset. f_equal. lra. Qed.

(** The clock shows the way gone; where a journey ends is determined by where it began. *)
Theorem c93_clock t x ls t' y : journey t x ls t' y -> t' = t + fold_right Rplus 0 (map (fun l => l_fin l - l_ini l) ls).
Proof. intro J. induction J as [t x|t x l ls st t' y O S J IH]; cbn; [lra|]. rewrite IH. unfold after. lra. Qed.
Theorem c93_determined ls : Forall proper_leg ls -> forall t x x2 t' y t2 y2, journey t x ls t' y -> journey t x2 ls t2 y2 -> same x x2 ->
  t' = t2 /\ same y y2.
Proof.
  induction ls as [|l ls IH]; intros F t x x2 t' y t2 y2 J J2 S.
  - inversion J; inversion J2; subst. split; [reflexivity|exact S].
  - inversion F as [|? ? Pl Fl]; subst. inversion J as [|? ? ? ? st ? ? Ob So Jo]; subst. inversion J2 as [|? ? ? ? st2 ? ? Ob2 So2 Jo2]; subst.
    apply (IH Fl _ _ _ _ _ _ _ Jo Jo2). destruct Pl as [L P].
    apply (obeys_unique (seen t l) t (after t l) st st2); try assumption; try (unfold after; lra).
    + intros s Ss. apply P. unfold offset, after in *. lra.
    + eapply same_trans; [exact So|]. eapply same_trans; [exact S|]. apply same_sym, So2.
Qed.

(** A leg cut in any number of pieces brings the state to where the whole leg brings it. *)
Lemma cut_pieces xs : forall (l : leg A) ls t x t' y st, proper_leg l -> between (l_ini l) (l_fin l) xs ->
  obeys (seen t l) t (after t l) st -> same (st t) x -> journey t x (cut l xs ++ ls) t' y ->
  exists z, same (st (after t l)) z /\ journey (after t l) z ls t' y.
Proof.
  induction xs as [|p xs IH]; intros l ls t x t' y st Pl B Ob I J.
  - cbn in J. inversion J as [|? ? ? ? st2 ? ? Ob2 I2 J2]; subst. exists (st2 (after t l)). split; [|exact J2].
    destruct Pl as [L P]. apply (obeys_unique (seen t l) t (after t l) st st2); try assumption; try (unfold after; lra).
    + intros s Ss. apply P. unfold offset, after in *. lra.
    + eapply same_trans; [exact I|]. apply same_sym, I2.
  - destruct B as [B1 B2]. pose proof (between_le _ _ _ B2) as B3. destruct Pl as [L P].
    cbn [cut app] in J. set (l1 := Leg (l_ini l) p (l_at l)) in *. set (l2 := Leg p (l_fin l) (l_at l)) in *.
    inversion J as [|? ? ? ? st2 ? ? Ob2 I2 J2]; subst.
    assert (Af : after (after t l1) l2 = after t l) by (unfold after, l1, l2; cbn; lra).
    assert (M : same (st (after t l1)) (st2 (after t l1))).
    { apply (obeys_unique (seen t l1) t (after t l1) st st2); try assumption; try (unfold after, l1; cbn; lra).
      - intros s Ss. apply P. unfold offset, after, l1 in *. cbn in *. lra.
      - apply (obeys_part _ t (after t l)); [lra|unfold after, l1; cbn; lra|exact Ob].
      - eapply same_trans; [exact I|]. apply same_sym, I2. }
    destruct (IH l2 ls (after t l1) (st2 (after t l1)) t' y st) as (z & Z1 & Z2).
    + split; [exact B3|]. intros q Q. apply P. cbn in Q. lra.
    + exact B2.
    + rewrite Af. apply (obeys_ext (seen t l)).
      * intros s Ss. unfold seen, offset, after, l1, l2. cbn. f_equal. lra.
      * apply (obeys_part _ t (after t l)); [unfold after, l1; cbn; lra|lra|exact Ob].
    + exact M.
    + exact J2.
    + rewrite Af in Z1, Z2. exists z. split; assumption.
Qed.
Lemma journey_start ls : forall t x x2 t' y, same x x2 -> ls <> [] -> journey t x ls t' y -> journey t x2 ls t' y.
Proof.
  intros t x x2 t' y S N J. destruct J as [t x|t x l ls st t' y O I J]; [contradiction|]. apply (j_leg _ _ _ _ _ _ _ _ _ _ _ _ _ _ _ _ _ st); try assumption.
  eapply same_trans; [exact I|exact S].
Qed.

(** Cut any leg of a journey at any positions: the end is the same. *)
Theorem c93_cut pre l post xs t x t1 y1 t2 y2 : Forall proper_leg (pre ++ l :: post) -> between (l_ini l) (l_fin l) xs ->
  journey t x (pre ++ l :: post) t1 y1 -> journey t x (pre ++ cut l xs ++ post) t2 y2 -> t1 = t2 /\ same y1 y2.
Proof.
  revert t x. assert (G : forall t x x2, same x x2 -> Forall proper_leg (pre ++ l :: post) -> between (l_ini l) (l_fin l) xs ->
    journey t x (pre ++ l :: post) t1 y1 -> journey t x2 (pre ++ cut l xs ++ post) t2 y2 -> t1 = t2 /\ same y1 y2).
  { induction pre as [|p pre IH]; intros t x x2 S F B J1 J2.
    - cbn [app] in *. inversion F as [|? ? Pl Fl]; subst. inversion J1 as [|? ? ? ? st ? ? Ob I Jo]; subst.
      destruct (cut_pieces xs l post t x2 t2 y2 st Pl B Ob ltac:(eapply same_trans; [exact I|exact S]) J2) as (z & Z1 & Z2).
      apply (c93_determined post Fl _ _ _ _ _ _ _ Jo Z2 Z1).
    - cbn [app] in *. inversion F as [|? ? Pp Fp]; subst. inversion J1 as [|? ? ? ? st ? ? Ob I Jo]; subst. inversion J2 as [|? ? ? ? st2 ? ? Ob2 I2 Jo2]; subst.
      apply (IH (after t p) (st (after t p)) (st2 (after t p))); try assumption. destruct Pp as [L P].
      apply (obeys_unique (seen t p) t (after t p) st st2); try assumption; try (unfold after; lra).
      + intros s Ss. apply P. unfold offset, after in *. lra.
      + eapply same_trans; [exact I|]. eapply same_trans; [exact S|]. apply same_sym, I2. }
  intros t x F B J1 J2. exact (G t x x (same_refl x) F B J1 J2).
Qed.

(** A whole way and its pieces exist together: a solution over the whole leg gives the journey over its pieces. *)
Theorem c93_cut_exists xs : forall (l : leg A) t st, proper_leg l -> between (l_ini l) (l_fin l) xs ->
  obeys (seen t l) t (after t l) st -> journey t (st t) (cut l xs) (after t l) (st (after t l)).
Proof.
  induction xs as [|p xs IH]; intros l t st Pl B Ob; cbn [cut].
  - apply (j_leg _ _ _ _ _ _ _ _ _ _ _ _ _ _ _ _ _ st); [exact Ob|apply same_refl|apply j_end].
  - destruct B as [B1 B2]. pose proof (between_le _ _ _ B2) as B3. destruct Pl as [L P].
    set (l1 := Leg (l_ini l) p (l_at l)). set (l2 := Leg p (l_fin l) (l_at l)).
    assert (Af : after (after t l1) l2 = after t l) by (unfold after, l1, l2; cbn; lra).
    apply (j_leg _ _ _ _ _ _ _ _ _ _ _ _ _ _ _ _ _ st).
    + apply (obeys_part _ t (after t l)); [lra|unfold after, l1; cbn; lra|exact Ob].
    + apply same_refl.
    + rewrite <- Af. apply (IH l2).
      * split; [exact B3|]. intros q Q. apply P. cbn in Q. lra.
      * exact B2.
      * rewrite Af. apply (obeys_ext (seen t l)).
        -- intros s Ss. unfold seen, offset, after, l1, l2. cbn. f_equal. lra.
        -- apply (obeys_part _ t (after t l)); [unfold after, l1; cbn; lra|lra|exact Ob].
Qed.

(** The same medium counted from elsewhere: shift a body and its track together, nothing changes. *)
Theorem c93_shift (l : leg A) d ls t x t' y : journey t x (l :: ls) t' y <->
  journey t x (Leg (l_ini l + d) (l_fin l + d) (fun p => l_at l (p - d)) :: ls) t' y.
Proof.
  set (l' := Leg (l_ini l + d) (l_fin l + d) (fun p => l_at l (p - d))).
  assert (Af : after t l' = after t l) by (unfold after, l'; cbn; lra).
  assert (Se : forall s, seen t l' s = seen t l s) by (intro s; unfold seen, offset, l'; cbn; f_equal; lra).
  split; intro J; inversion J as [|? ? ? ? st ? ? Ob I Jo]; subst; apply (j_leg _ _ _ _ _ _ _ _ _ _ _ _ _ _ _ _ _ st); try assumption;
    rewrite ?Af in *; try assumption; (eapply obeys_ext; [|exact Ob]); intros; rewrite ?Se; congruence || (symmetry; apply Se).
Qed.

(** Fluxes that are not negative stay so over all legs. *)
Theorem c93_positive ls : Forall proper_leg ls -> forall t x t' y,
  (forall l p s r f e, In l ls -> l_ini l <= p <= l_fin l -> c_src (conf (l_at l p)) = true -> (r < nr)%nat -> (f < c_numneu (conf (l_at l p)))%nat -> (e < ne)%nat ->
     projector n (mat_of (proj s r f e)) /\ 0 <= c_ext (conf (l_at l p)) e r f) ->
  journey t x ls t' y ->
  (forall e r, (e < ne)%nat -> (r < nr)%nat -> psd n (mat_of (x e r))) -> forall e r, (e < ne)%nat -> (r < nr)%nat -> psd n (mat_of (y e r)).
Proof.
  intros F t x t' y Src J. revert F Src. induction J as [t x|t x l ls st t' y Ob I J IH]; intros F Src P e r He Hr; [apply P; assumption|].
  inversion F as [|? ? Pl Fl]; subst. apply IH; try assumption.
  - intros l' p s r' f' e' In'. apply Src. right. exact In'.
  - intros e2 r2 E2 R2. destruct Ob as (old & fo & H). pose proof (leg_setup t l Pl) as Su. destruct Pl as [L _].
    apply (c91_positive n mat_of dot su inter osc tb rne ne nr t (after t l) _ proj _ Su old fo st); try assumption; try (unfold after; lra).
    + intros s r' f' e' Ss Cs R' F' E'. apply (Src l _ s r' f' e' (or_introl eq_refl)); try assumption. unfold offset, after in *. lra.
    + intros e3 r3 E3 R3. apply (psd_meq n (mat_of (x e3 r3))); [apply meq_sym, I; assumption|apply P; assumption].
Qed.
End Pieces.

(** ** A case: absorption, then absorption with a source; the second leg cut in two *)
Definition ex_conf (a : R) : iconf := with_ext (one_c 0) (fun _ _ _ => a).
Definition leg_a : leg R := Leg 10 11 (fun _ => 0).
Definition leg_b : leg R := Leg 5 7 (fun _ => 1).
Definition ex_y : R := 1 - exp 2 / 2.
Lemma ex_proper a : proper 3 diag ex_t 4 1 1 ex_conf (fun _ _ _ _ => mzero) (fun _ => ex_proj) a.
Proof.
  intro s. destruct (one_setup s s) as [T P C Q H]. constructor; assumption.
Qed.
Lemma ex_obeys x y t0 t1 (m : R -> R) : (forall s, m s = x) ->
  obeys 3 diag ex_dot true true ex_t 4 1 1 ex_conf (fun _ _ _ _ => mzero) (fun _ => ex_proj) m t0 t1 (one_st x y).
Proof.
  intro E. exists (fun _ => ex_s), (fun _ => ex_f). intros s e r _ He Hr. rewrite E. replace e with 0%nat by lia. replace r with 0%nat by lia. apply one_solves.
Qed.
Example c93_case :
  let J := journey 3 diag ex_dot true true ex_t 4 1 1 ex_conf (fun _ _ _ _ => mzero) (fun _ => ex_proj) in
  su_repr 3 diag ex_dot /\ Forall (proper_leg 3 diag ex_t 4 1 1 ex_conf (fun _ _ _ _ => mzero) (fun _ => ex_proj)) [leg_a; leg_b] /\
  J 0 (one_st 0 1 0) [leg_a; leg_b] 3 (one_st 1 ex_y 3) /\ J 0 (one_st 0 1 0) ([leg_a] ++ cut leg_b [6] ++ []) 3 (one_st 1 ex_y 3) /\
  between (l_ini leg_b) (l_fin leg_b) [6] /\ one_st 1 ex_y 3 0%nat 0%nat 0%nat <> one_st 0 1 3 0%nat 0%nat 0%nat.
Proof.
  cbv zeta.
  assert (Mid : forall s, s = 1 -> same 3 diag 1 1 (one_st 1 ex_y s) (one_st 0 1 s)).
  { intros s -> e r _ _ i j _ _. unfold diag, one_st, ex_y. destruct (Nat.eqb i j); [|reflexivity]. f_equal.
    assert (X : exp 2 * exp (- (2 * 1)) = 1) by (rewrite <- exp_plus; replace (2 + - (2 * 1)) with 0 by ring; apply exp_0). lra. }
  split; [apply diag_repr|]. split; [|split; [|split; [|split]]].
  - apply Forall_cons; [|apply Forall_cons; [|apply Forall_nil]]; (split; [cbn [l_ini l_fin leg_a leg_b]; lra|]; intros x _; apply ex_proper).
  - apply (j_leg _ _ _ _ _ _ _ _ _ _ _ _ _ _ _ _ _ (one_st 0 1)); [apply ex_obeys; reflexivity|intros e r _ _; apply meq_refl|].
    apply (j_leg _ _ _ _ _ _ _ _ _ _ _ _ _ _ _ _ _ (one_st 1 ex_y)); [apply ex_obeys; reflexivity|apply Mid; unfold after, leg_a, leg_b; cbn [l_ini l_fin]; lra|].
    replace (after (after 0 leg_a) leg_b) with 3 by (unfold after, leg_a, leg_b; cbn [l_ini l_fin]; lra). apply j_end.
  - cbn [app cut].
    apply (j_leg _ _ _ _ _ _ _ _ _ _ _ _ _ _ _ _ _ (one_st 0 1)); [apply ex_obeys; reflexivity|intros e r _ _; apply meq_refl|].
    apply (j_leg _ _ _ _ _ _ _ _ _ _ _ _ _ _ _ _ _ (one_st 1 ex_y)); [apply ex_obeys; reflexivity|apply Mid; unfold after, leg_a, leg_b; cbn [l_ini l_fin]; lra|].
    apply (j_leg _ _ _ _ _ _ _ _ _ _ _ _ _ _ _ _ _ (one_st 1 ex_y)); [apply ex_obeys; reflexivity|intros e r _ _; apply meq_refl|].
    replace (after _ _) with 3 by (unfold after, leg_a, leg_b; cbn [l_ini l_fin]; lra). apply j_end.
  - cbn [between l_ini l_fin leg_b]. lra.
  - unfold one_st, ex_y. intro E. assert (X : exp 2 * exp (- (2 * 3)) = exp (- (4))) by (rewrite <- exp_plus; f_equal; ring).
    assert (Y : exp (- (4)) < 1) by (rewrite <- exp_0; apply exp_increasing; lra). lra.
Qed.

Print Assumptions c93_position.
Print Assumptions c93_clock.
Print Assumptions c93_determined.
Print Assumptions c93_cut.
Print Assumptions c93_cut_exists.
Print Assumptions c93_shift.
Print Assumptions c93_positive.
