(** Reasoning about calls on an evolution object, and the lemmas used by StateProps. *)
From Coq Require Import Reals List Arith Bool ZArith Lia Lra.
From Verif Require Import IntModel XsModel StateModel.
Import ListNotations.
Open Scope R_scope.

Definition out_res (x : res * nus * list event) : res := fst (fst x).
Definition out_obj (x : res * nus * list event) : nus := snd (fst x).
Definition out_evs (x : res * nus * list event) : list event := snd x.

Lemma seq_eq m1 m2 s :
  (m1 ;; m2)%m s = match m1 s with
    | (Done, s1, e1) => match m2 s1 with (r, s2, e2) => (r, s2, e1 ++ e2) end
    | other => other end.
Proof. reflexivity. Qed.

(** ** A relation kept by a call whatever its outcome *)

Definition stable (Q : nus -> nus -> Prop) (m : M) : Prop := forall s, Q s (out_obj (m s)).

Section Stable.
  Variable Q : nus -> nus -> Prop.
  Hypothesis Qr : forall s, Q s s.
  Hypothesis Qt : forall a b c, Q a b -> Q b c -> Q a c.

  Lemma st_ret : stable Q ret. Proof. intro s. apply Qr. Qed.
  Lemma st_throw : stable Q throw. Proof. intro s. apply Qr. Qed.
  Lemma st_undef u : stable Q (undef u). Proof. intro s. apply Qr. Qed.
  Lemma st_emit ev : stable Q (emit ev). Proof. intro s. apply Qr. Qed.
  Lemma st_modify f : (forall s, Q s (f s)) -> stable Q (modify f).
  Proof. intros H s. apply H. Qed.
  Lemma st_seq a b : stable Q a -> stable Q b -> stable Q (a ;; b)%m.
  Proof.
    intros Ha Hb s. rewrite seq_eq. specialize (Ha s).
    destruct (a s) as [[r s1] e1]. cbn in Ha.
    destruct r; [|exact Ha|exact Ha]. specialize (Hb s1).
    destruct (b s1) as [[r s2] e2]. cbn in *. eapply Qt; eassumption.
  Qed.
  Lemma st_read f : (forall s0, stable Q (f s0)) -> stable Q (read f).
  Proof. intros H s. apply (H s s). Qed.
  Lemma st_when b m : stable Q m -> stable Q (when b m).
  Proof. intro H. destruct b; [exact H|apply st_ret]. Qed.
  Lemma st_mfor k : forall i f, (forall j, stable Q (f j)) -> stable Q (mfor k i f).
  Proof.
    induction k as [|k IH]; intros i f H; cbn [mfor]; [apply st_ret|].
    apply st_seq; [apply H|apply IH, H].
  Qed.
  Lemma st_meach A (l : list A) f : (forall a, stable Q (f a)) -> stable Q (meach l f).
  Proof.
    intro H. induction l as [|a l IH]; cbn [meach]; [apply st_ret|].
    apply st_seq; [apply H|apply IH].
  Qed.
End Stable.

(** Every relation of the form "this part is unchanged" is of the right kind. *)
Definition keeps {A} (f : nus -> A) : nus -> nus -> Prop := fun a b => f b = f a.
Lemma keeps_refl A (f : nus -> A) s : keeps f s s. Proof. reflexivity. Qed.
Lemma keeps_trans A (f : nus -> A) a b c : keeps f a b -> keeps f b c -> keeps f a c.
Proof. unfold keeps. congruence. Qed.

(** One syntactic step; [r] and [t] are reflexivity and transitivity. *)
Ltac stab_with r t := repeat lazymatch goal with
  | |- stable _ (seq_ _ _) => apply st_seq; [exact t | |]
  | |- stable _ ret => apply st_ret; exact r
  | |- stable _ throw => apply st_throw; exact r
  | |- stable _ (undef _) => apply st_undef; exact r
  | |- stable _ (emit _) => apply st_emit; exact r
  | |- stable _ (read _) => apply st_read; intro
  | |- stable _ (when _ _) => apply st_when; [exact r |]
  | |- stable _ (mfor _ _ _) => apply st_mfor; [exact r | exact t | intro]
  | |- stable _ (meach _ _) => apply st_meach; [exact r | exact t | intro]
  | |- stable _ (modify _) => apply st_modify; intro; cbv beta;
       repeat match goal with |- context [if ?b then _ else _] => destruct b end;
       reflexivity
  | |- stable _ (match ?x with _ => _ end) => destruct x
  | |- stable _ (let '(_, _) := ?x in _) => destruct x
  end.

Section Machine.
Variable e : env.

(** ** The phase flip *)

Lemma set_phase_eq i j v s :
  (i < j)%nat -> (j < q_numneu s)%nat -> (q_numneu s <= e_maxdim e)%nat ->
  set_phase e i j v s
  = (Done, put_f_state false (put_p_phase (upd2 (p_phase (q_pars s)) i j v) s), []).
Proof.
  intros Hij Hj Hm. unfold set_phase, read, accepts.
  replace (q_numneu s <? i)%nat with false by (symmetry; apply Nat.ltb_ge; lia).
  replace (q_numneu s <? j)%nat with false by (symmetry; apply Nat.ltb_ge; lia).
  replace (i <? j)%nat with true by (symmetry; apply Nat.ltb_lt; lia).
  replace (j <? e_maxdim e)%nat with true by (symmetry; apply Nat.ltb_lt; lia).
  reflexivity.
Qed.

(** [s'] is [s] up to the phases and the validity of the state *)
Definition phase_frame (s s' : nus) : Prop :=
  s' = put_p_phase (p_phase (q_pars s')) (put_f_state (f_state (q_flags s')) s).

Lemma phase_frame_trans a b c : phase_frame a b -> phase_frame b c -> phase_frame a c.
Proof. unfold phase_frame. intros H1 H2. rewrite H2, H1. destruct a as [? ? ? ? ? [? ? ?] ? ? ? [? ? ? ? ?] ? ? ? ? ? ?]. reflexivity. Qed.

Lemma phase_frame_refl a : phase_frame a a.
Proof. unfold phase_frame. destruct a as [? ? ? ? ? [? ? ?] ? ? ? [? ? ? ? ?] ? ? ? ? ? ?]. reflexivity. Qed.

Definition inr_ (lo hi x : nat) : bool := Nat.leb lo x && Nat.ltb x hi.

Lemma flip_inner i : forall k j s,
  (i < j)%nat -> (j + k <= q_numneu s)%nat -> (q_numneu s <= e_maxdim e)%nat ->
  exists s', mfor k j (fun j => read (fun s => set_phase e i j (- p_phase (q_pars s) i j))) s
             = (Done, s', []) /\
    phase_frame s s' /\ (f_state (q_flags s') = true -> f_state (q_flags s) = true) /\
    forall a b, p_phase (q_pars s') a b
      = if Nat.eqb a i && inr_ j (j + k) b then - p_phase (q_pars s) a b else p_phase (q_pars s) a b.
Proof.
  induction k as [|k IH]; intros j s Hij Hj Hm; cbn [mfor].
  - exists s. repeat split; [apply phase_frame_refl|tauto|]. intros a b.
    replace (inr_ j (j + 0) b) with false; [rewrite andb_false_r; reflexivity|].
    unfold inr_. destruct (Nat.leb_spec j b), (Nat.ltb_spec b (j + 0)); cbn; lia || reflexivity.
  - rewrite seq_eq. unfold read at 1.
    rewrite set_phase_eq by lia. cbn [app].
    set (s1 := put_f_state false _).
    destruct (IH (S j) s1) as (s' & E & F & G & P); [lia|cbn; lia|cbn; lia|].
    exists s'. unfold read in E |- *. rewrite E. split; [reflexivity|].
    split; [|split].
    + eapply phase_frame_trans; [|exact F]. unfold phase_frame, s1.
      destruct s as [? ? ? ? ? [? ? ?] ? ? ? [? ? ? ? ?] ? ? ? ? ? ?]. reflexivity.
    + intro H. apply G in H. discriminate H.
    + intros a b. rewrite P. unfold s1. cbn [q_pars p_phase put_f_state put_p_phase set_q_flags
        set_q_pars set_p_phase]. unfold upd2, inr_.
      destruct (Nat.eqb_spec a i) as [->|]; cbn [andb]; [|reflexivity].
      destruct (Nat.eqb_spec b j) as [->|].
      * replace (S j <=? j)%nat with false by (symmetry; apply Nat.leb_gt; lia).
        replace (j <=? j)%nat with true by (symmetry; apply Nat.leb_le; lia).
        replace (j <? j + S k)%nat with true by (symmetry; apply Nat.ltb_lt; lia). reflexivity.
      * destruct (Nat.leb_spec (S j) b), (Nat.leb_spec j b), (Nat.ltb_spec b (S j + k)),
          (Nat.ltb_spec b (j + S k)); cbn [andb]; try reflexivity; lia.
Qed.

(** a pair of flavours [i < j < n] *)
Definition pair_in (n a b : nat) : bool := Nat.ltb a b && Nat.ltb b n.

Lemma flip_outer n : forall k i s,
  (i + k = n)%nat -> q_numneu s = n -> (n <= e_maxdim e)%nat ->
  exists s', mfor k i (fun i => mfor (n - S i) (S i) (fun j =>
               read (fun s => set_phase e i j (- p_phase (q_pars s) i j)))) s = (Done, s', []) /\
    phase_frame s s' /\ (f_state (q_flags s') = true -> f_state (q_flags s) = true) /\
    forall a b, p_phase (q_pars s') a b
      = if Nat.leb i a && pair_in n a b then - p_phase (q_pars s) a b else p_phase (q_pars s) a b.
Proof.
  induction k as [|k IH]; intros i s Hi Hn Hm; cbn [mfor].
  - exists s. repeat split; [apply phase_frame_refl|tauto|]. intros a b.
    replace (Nat.leb i a && pair_in n a b) with false; [reflexivity|].
    unfold pair_in. destruct (Nat.leb_spec i a), (Nat.ltb_spec a b), (Nat.ltb_spec b n); cbn; lia || reflexivity.
  - rewrite seq_eq.
    destruct (flip_inner i (n - S i) (S i) s) as (s1 & E1 & F1 & G1 & P1); [lia|lia|lia|].
    rewrite E1.
    assert (N1 : q_numneu s1 = n) by (rewrite F1; cbn; exact Hn).
    destruct (IH (S i) s1) as (s' & E & F & G & P); [lia|exact N1|lia|].
    rewrite E. exists s'. split; [reflexivity|].
    split; [eapply phase_frame_trans; eassumption|]. split; [tauto|].
    intros a b. rewrite P, P1. unfold pair_in, inr_.
    destruct (Nat.eqb_spec a i) as [->|].
    + replace (S i <=? i)%nat with false by (symmetry; apply Nat.leb_gt; lia).
      replace (i <=? i)%nat with true by (symmetry; apply Nat.leb_le; lia). cbn [andb].
      destruct (Nat.leb_spec (S i) b), (Nat.ltb_spec i b), (Nat.ltb_spec b (S i + (n - S i))),
        (Nat.ltb_spec b n); cbn [andb]; try reflexivity; lia.
    + cbn [andb]. destruct (Nat.leb_spec (S i) a), (Nat.leb_spec i a); cbn [andb]; try reflexivity; lia.
Qed.

Lemma flip_eq s : (q_numneu s <= e_maxdim e)%nat ->
  exists s', flip_phases e s = (Done, s', []) /\ phase_frame s s' /\
    (f_state (q_flags s') = true -> f_state (q_flags s) = true) /\
    forall a b, p_phase (q_pars s') a b
      = if pair_in (q_numneu s) a b then - p_phase (q_pars s) a b else p_phase (q_pars s) a b.
Proof.
  intro H. destruct (flip_outer (q_numneu s) (q_numneu s) 0 s) as (s' & E & F & G & P);
    [lia|reflexivity|exact H|].
  exists s'. unfold flip_phases, read in *. split; [exact E|]. split; [exact F|]. split; [exact G|].
  intros a b. rewrite P. reflexivity.
Qed.

(** the sign of the phases as seen by neutrino type [rho] *)
Definition signed (t : nt) (rho n : nat) (ph : nat -> nat -> R) (a b : nat) : R :=
  if is_anti t rho && pair_in n a b then - ph a b else ph a b.

Lemma cp_fix_eq rho s : (q_numneu s <= e_maxdim e)%nat ->
  exists s', cp_fix e rho s = (Done, s', []) /\ phase_frame s s' /\
    (f_state (q_flags s') = true -> f_state (q_flags s) = true) /\
    forall a b, p_phase (q_pars s') a b = signed (q_nt s) rho (q_numneu s) (p_phase (q_pars s)) a b.
Proof.
  intro H. unfold cp_fix, read, when, signed. destruct (is_anti (q_nt s) rho); cbn [andb].
  - destruct (flip_eq s H) as (s' & E & F & G & P). exists s'. tauto.
  - exists s. repeat split; try tauto. apply phase_frame_refl.
Qed.

(** [s'] is [s] up to projectors, phases (but these have the same values) and
    the validity of the state *)
Definition proj_frame (s s' : nus) : Prop :=
  s' = set_q_proj (q_proj s') (put_p_phase (p_phase (q_pars s'))
         (put_f_state (f_state (q_flags s')) s)) /\
  (f_state (q_flags s') = true -> f_state (q_flags s) = true) /\
  (forall a b, p_phase (q_pars s') a b = p_phase (q_pars s) a b).

Ltac dest_nus s :=
  destruct s as [? ? ? ? ? [? ? ?] [? ? ? ? ?] [? ? ? ? ? ? ? ? ? ?] [? ? ? ? ? ? ? ?] [? ? ? ? ?] ? ? ? ? ? ?].

Lemma proj_frame_refl a : proj_frame a a.
Proof. unfold proj_frame. repeat split; try tauto. dest_nus a. reflexivity. Qed.

Lemma proj_frame_trans a b c : proj_frame a b -> proj_frame b c -> proj_frame a c.
Proof.
  unfold proj_frame. intros (H1 & G1 & P1) (H2 & G2 & P2). repeat split; [|tauto|].
  - rewrite H2, H1. dest_nus a. reflexivity.
  - intros x y. rewrite P2. apply P1.
Qed.

(** the projector of [f] for type [r] belongs to the parameters [p] *)
Definition built (t : nt) (n : nat) (p : pars) (r : nat) (q : pars) : Prop :=
  p_angle q = p_angle p /\ p_dm q = p_dm p /\
  forall a b, p_phase q a b = signed t r n (p_phase p) a b.

Lemma rotate_eq rho flv s : (q_numneu s <= e_maxdim e)%nat ->
  exists s', rotate e rho flv s = (Done, s', []) /\ proj_frame s s' /\
    built (q_nt s) (q_numneu s) (q_pars s) rho (q_proj s' rho flv) /\
    forall r f, (r <> rho \/ f <> flv) -> q_proj s' r f = q_proj s r f.
Proof.
  intro H. unfold rotate. rewrite seq_eq.
  destruct (cp_fix_eq rho s H) as (s1 & E1 & F1 & G1 & P1). rewrite E1, seq_eq.
  unfold modify at 1. set (s2 := set_q_proj _ s1).
  assert (N : q_numneu s2 = q_numneu s) by (unfold s2; rewrite F1; reflexivity).
  assert (T : q_nt s2 = q_nt s) by (unfold s2; rewrite F1; reflexivity).
  destruct (cp_fix_eq rho s2) as (s3 & E3 & F3 & G3 & P3); [rewrite N; exact H|].
  rewrite E3. exists s3. split; [reflexivity|].
  assert (PR : q_proj s3 = q_proj s2) by (rewrite F3; reflexivity).
  split; [|split].
  - unfold proj_frame. split; [|split].
    + rewrite F3. unfold s2. rewrite F1. dest_nus s. reflexivity.
    + intro X. apply G3 in X. unfold s2 in X. cbn in X. apply G1, X.
    + intros a b. rewrite P3, N, T. unfold s2, signed. cbn [set_q_proj q_pars]. rewrite !P1.
      unfold signed. destruct (is_anti (q_nt s) rho && pair_in (q_numneu s) a b); lra.
  - rewrite PR. unfold s2. cbn [set_q_proj q_proj]. rewrite !Nat.eqb_refl. cbn [andb].
    unfold built. rewrite F1. repeat split. intros a b. rewrite <- F1. apply P1.
  - intros r f Hrf. rewrite PR. unfold s2. cbn [set_q_proj q_proj].
    destruct (Nat.eqb_spec r rho), (Nat.eqb_spec f flv); cbn [andb]; try tauto; rewrite F1; reflexivity.
Qed.

(** repeated rotations of the same projector *)
Lemma rotate_many rho flv : forall k i s, (q_numneu s <= e_maxdim e)%nat ->
  exists s', mfor k i (fun _ => rotate e rho flv) s = (Done, s', []) /\ proj_frame s s' /\
    forall r f, (r <> rho \/ f <> flv) -> q_proj s' r f = q_proj s r f.
Proof.
  induction k as [|k IH]; intros i s H; cbn [mfor].
  - exists s. repeat split; try tauto. apply proj_frame_refl.
  - rewrite seq_eq. destruct (rotate_eq rho flv s H) as (s1 & E1 & F1 & _ & O1). rewrite E1.
    destruct (IH (S i) s1) as (s' & E & F & O).
    { destruct F1 as (-> & _). exact H. }
    rewrite E. exists s'. split; [reflexivity|]. split; [eapply proj_frame_trans; eassumption|].
    intros r f X. rewrite O, O1 by exact X. reflexivity.
Qed.

Lemma signed_ext t r n p q : (forall a b, p a b = q a b) ->
  forall a b, signed t r n p a b = signed t r n q a b.
Proof. intros H a b. unfold signed. rewrite H. reflexivity. Qed.

Lemma built_frame s s' r q : proj_frame s s' ->
  built (q_nt s) (q_numneu s) (q_pars s) r q -> built (q_nt s') (q_numneu s') (q_pars s') r q.
Proof.
  intros (F & _ & P) (A & D & B). unfold built.
  assert (T : q_nt s' = q_nt s) by (rewrite F; reflexivity).
  assert (N : q_numneu s' = q_numneu s) by (rewrite F; reflexivity).
  assert (AN : p_angle (q_pars s') = p_angle (q_pars s)) by (rewrite F; reflexivity).
  assert (DM : p_dm (q_pars s') = p_dm (q_pars s)) by (rewrite F; reflexivity).
  rewrite T, N, AN, DM. repeat split; try assumption.
  intros a b. rewrite B. apply signed_ext. intros x y. symmetry. apply P.
Qed.

Lemma flv_loop rho ne : forall k i s, (q_numneu s <= e_maxdim e)%nat ->
  exists s', mfor k i (fun flv => (mfor ne 0 (fun _ => rotate e rho flv) ;; rotate e rho flv)%m) s
             = (Done, s', []) /\ proj_frame s s' /\
    (forall f, (i <= f < i + k)%nat -> built (q_nt s) (q_numneu s) (q_pars s) rho (q_proj s' rho f)) /\
    forall r f, (r <> rho \/ ~ (i <= f < i + k)%nat) -> q_proj s' r f = q_proj s r f.
Proof.
  induction k as [|k IH]; intros i s H; cbn [mfor].
  - exists s. split; [reflexivity|]. split; [apply proj_frame_refl|]. split; [intros; lia|reflexivity].
  - rewrite seq_eq, seq_eq. destruct (rotate_many rho i ne 0 s H) as (s1 & E1 & F1 & O1). rewrite E1.
    assert (H1 : (q_numneu s1 <= e_maxdim e)%nat) by (destruct F1 as (-> & _); exact H).
    destruct (rotate_eq rho i s1 H1) as (s2 & E2 & F2 & B2 & O2). rewrite E2. cbn [app].
    assert (F12 : proj_frame s s2) by (eapply proj_frame_trans; eassumption).
    assert (H2 : (q_numneu s2 <= e_maxdim e)%nat) by (destruct F12 as (-> & _); exact H).
    destruct (IH (S i) s2 H2) as (s' & E & F & B & O). rewrite E.
    exists s'. split; [reflexivity|]. split; [eapply proj_frame_trans; eassumption|].
    assert (back : forall q, built (q_nt s2) (q_numneu s2) (q_pars s2) rho q ->
                             built (q_nt s) (q_numneu s) (q_pars s) rho q).
    { destruct F12 as (F0 & _ & P0). intros q (A & D & X).
      assert (T : q_nt s2 = q_nt s) by (rewrite F0; reflexivity).
      assert (N : q_numneu s2 = q_numneu s) by (rewrite F0; reflexivity).
      assert (AN : p_angle (q_pars s2) = p_angle (q_pars s)) by (rewrite F0; reflexivity).
      assert (DM : p_dm (q_pars s2) = p_dm (q_pars s)) by (rewrite F0; reflexivity).
      unfold built. rewrite <- AN, <- DM. repeat split; try assumption.
      intros a b. rewrite X, T, N. apply signed_ext. exact P0. }
    split.
    + intros f Hf. destruct (Nat.eq_dec f i) as [->|Hne].
      * rewrite O by lia. apply back. apply (built_frame s1 s2); assumption.
      * apply back, B. lia.
    + intros r f Hrf. rewrite O by lia. rewrite O2 by lia. apply O1. lia.
Qed.

Lemma rho_loop ne n : forall k i s, q_numneu s = n -> (n <= e_maxdim e)%nat ->
  exists s', mfor k i (fun rho => mfor n 0 (fun flv =>
               (mfor ne 0 (fun _ => rotate e rho flv) ;; rotate e rho flv)%m)) s
             = (Done, s', []) /\ proj_frame s s' /\
    forall r f, (i <= r < i + k)%nat -> (f < n)%nat ->
      built (q_nt s') (q_numneu s') (q_pars s') r (q_proj s' r f).
Proof.
  induction k as [|k IH]; intros i s Hn H; cbn [mfor].
  - exists s. split; [reflexivity|]. split; [apply proj_frame_refl|]. intros; lia.
  - rewrite seq_eq. destruct (flv_loop i ne n 0 s) as (s1 & E1 & F1 & B1 & O1); [lia|]. rewrite E1.
    assert (N1 : q_numneu s1 = n) by (destruct F1 as (-> & _); exact Hn).
    destruct (IH (S i) s1 N1 H) as (s' & E & F & B). rewrite E.
    exists s'. split; [reflexivity|]. split; [eapply proj_frame_trans; eassumption|].
    intros r f Hr Hf. destruct (Nat.eq_dec r i) as [->|Hne]; [|apply B; lia].
    assert (O : q_proj s' i f = q_proj s1 i f).
    { clear - E H N1 Hf. revert E.
      assert (G : forall k j s1, q_numneu s1 = n -> (i < j)%nat -> forall s',
        mfor k j (fun rho => mfor n 0 (fun flv =>
          (mfor ne 0 (fun _ => rotate e rho flv) ;; rotate e rho flv)%m)) s1 = (Done, s', []) ->
        q_proj s' i f = q_proj s1 i f).
      { clear - H. induction k as [|k IH]; intros j s1 N1 Hj s'; cbn [mfor].
        - unfold ret. intro X. injection X as <-. reflexivity.
        - rewrite seq_eq. destruct (flv_loop j ne n 0 s1) as (s2 & E2 & F2 & _ & O2); [lia|].
          rewrite E2. intro X. cbn [app] in X.
          destruct (mfor k (S j) _ s2) as [[r3 s3] e3] eqn:E3. cbn [app] in X.
          injection X as -> -> ->.
          rewrite (IH (S j) s2) with (s' := s'); [apply O2; lia| |lia|exact E3].
          destruct F2 as (-> & _). exact N1. }
      apply G; [exact N1|lia]. }
    rewrite O. apply (built_frame s1 s' i _ F).
    apply (built_frame s s1 i _ F1). apply B1. lia.
Qed.

Lemma set_projectors_eq s : (q_numneu s <= e_maxdim e)%nat ->
  exists s', set_projectors e s = (Done, s', []) /\ proj_frame s s' /\
    forall r f, (r < q_nrhos s)%nat -> (f < q_numneu s)%nat ->
      built (q_nt s') (q_numneu s') (q_pars s') r (q_proj s' r f).
Proof.
  intro H. unfold set_projectors, read.
  destruct (rho_loop (q_ne s) (q_numneu s) (q_nrhos s) 0 s eq_refl H) as (s' & E & F & B).
  exists s'. split; [exact E|]. split; [exact F|]. intros r f Hr Hf. apply B; lia.
Qed.

(** ** Setting the state *)

(** everything the evolution uses was computed from the present parameters *)
Definition fresh (s : nus) : Prop :=
  (forall r f, (r < q_nrhos s)%nat -> (f < q_numneu s)%nat ->
     built (q_nt s) (q_numneu s) (q_pars s) r (q_proj s r f)) /\
  (forall i, h_dm (q_h0 s) i = p_dm (q_pars s) i) /\ h_E (q_h0 s) = q_E s.

(** [s'] is [s] with the state set at the start of the trajectory [t] *)
Record state_set (s s' : nus) (t : track) : Prop := {
  ss_nt : q_nt s' = q_nt s; ss_numneu : q_numneu s' = q_numneu s;
  ss_ne : q_ne s' = q_ne s; ss_nrhos : q_nrhos s' = q_nrhos s; ss_E : q_E s' = q_E s;
  ss_angle : p_angle (q_pars s') = p_angle (q_pars s);
  ss_phase : forall a b, p_phase (q_pars s') a b = p_phase (q_pars s) a b;
  ss_dm : p_dm (q_pars s') = p_dm (q_pars s);
  ss_t : sq_t (q_sq s') = tr_ini t; ss_t0 : sq_t0 (q_sq s') = tr_ini t;
  ss_h : sq_h (q_sq s') = e_ini_h e (sq_h (q_sq s));
  ss_num : sq_num (q_sq s') = e_ini_num e (sq_num (q_sq s));
  ss_opts : q_opts s' = q_opts s; ss_ints : q_ints s' = q_ints s;
  ss_flags : q_flags s' = set_f_state true (q_flags s);
  ss_body : q_body s' = q_body s; ss_track : q_track s' = Some t;
  ss_x : q_x s' = tr_ini t; ss_offset : q_offset s' = Some 0;
  ss_osc : h_osc (q_h0 s') = o_osc (q_opts s);
  ss_fresh : fresh s' }.

Lemma fill_state_eq v b s t :
  (q_numneu s <= e_maxdim e)%nat -> q_track s = Some t -> f_energy (q_flags s) = true ->
  exists s', fill_state e v b s = (Done, s', []) /\ state_set s s' t /\
    exists s1, sq_state (q_sq s') = e_mk e s1 v b /\ q_proj s1 = q_proj s' /\ q_pars s1 = q_pars s'.
Proof.
  intros H Ht He. unfold fill_state, read. rewrite Ht.
  rewrite !seq_eq. unfold modify at 1. rewrite seq_eq. unfold modify at 1. rewrite seq_eq.
  unfold modify at 1. rewrite seq_eq.
  set (s1 := set_q_offset _ _).
  assert (N1 : (q_numneu s1 <= e_maxdim e)%nat) by exact H.
  destruct (set_projectors_eq s1 N1) as (s2 & E2 & (F2 & _ & P2) & B2). rewrite E2.
  rewrite seq_eq. unfold ini_h0, modify at 1.
  assert (FE : f_energy (q_flags s2) = true) by (rewrite F2; exact He). rewrite FE.
  set (s3 := set_q_h0 _ s2). rewrite seq_eq. unfold modify at 1. unfold modify at 1.
  cbn [app]. set (s4 := put_sq_state _ s3).
  exists (put_f_state true s4). split; [reflexivity|]. split.
  - unfold s4, s3. constructor; try (rewrite F2; reflexivity); try reflexivity.
    + intros a b0. exact (P2 a b0).
    + rewrite F2. cbn. exact Ht.
    + split; [|split; [reflexivity|reflexivity]].
      intros r f Hr Hf. refine (B2 r f _ _).
      * change (q_nrhos s1) with (q_nrhos s). replace (q_nrhos s) with (q_nrhos s2); [exact Hr|].
        rewrite F2. reflexivity.
      * change (q_numneu s1) with (q_numneu s). replace (q_numneu s) with (q_numneu s2); [exact Hf|].
        rewrite F2. reflexivity.
  - exists s3. repeat split.
Qed.

(** ** What holds of every object *)

Record wf (s : nus) : Prop := {
  wf_min : (3 <= q_numneu s)%nat; wf_max : (q_numneu s <= e_maxdim e)%nat;
  wf_ne : (0 < q_ne s)%nat;
  wf_track : f_track (q_flags s) = true -> q_track s <> None;
  wf_offset : f_track (q_flags s) = true -> q_offset s <> None;
  wf_back : q_track s <> None -> f_track (q_flags s) = true }.

(** the three versions of Set_initial_state *)
Definition is_init (c : call) : bool :=
  match c with CInit1 _ _ _ | CInit2 _ _ _ _ | CInit3 _ _ _ _ _ => true | _ => false end.

Lemma checks_eq l m s : (checks l ;; m)%m s
  = if existsb (fun b => b) l then (Threw, s, []) else m s.
Proof.
  rewrite seq_eq. unfold checks. destruct (existsb _ l); [reflexivity|].
  unfold ret. destruct (m s) as [[r s'] ev]. reflexivity.
Qed.

(** a call that sets the state is refused without effect, or sets it *)
Lemma init_cases c s : wf s -> is_init c = true ->
  exec e c s = (Threw, s, []) \/
  exists t s', q_track s = Some t /\ exec e c s = (Done, s', []) /\ state_set s s' t /\
    f_body (q_flags s) = true /\ f_track (q_flags s) = true /\ f_energy (q_flags s) = true /\
    exists s1 v b, sq_state (q_sq s') = e_mk e s1 v b /\ q_proj s1 = q_proj s' /\ q_pars s1 = q_pars s'.
Proof.
  intros W Hc.
  assert (K : forall l v b, In (negb (f_track (q_flags s)) || negb (f_body (q_flags s)))%bool l ->
    In (negb (f_energy (q_flags s))) l ->
    (checks l ;; fill_state e v b)%m s = (Threw, s, []) \/
    exists t s', q_track s = Some t /\ (checks l ;; fill_state e v b)%m s = (Done, s', []) /\ state_set s s' t /\
      f_body (q_flags s) = true /\ f_track (q_flags s) = true /\ f_energy (q_flags s) = true /\
      exists s1 v b, sq_state (q_sq s') = e_mk e s1 v b /\ q_proj s1 = q_proj s' /\ q_pars s1 = q_pars s').
  { intros l v b I1 I2. rewrite checks_eq. destruct (existsb (fun b => b) l) eqn:X; [left; reflexivity|].
    right. assert (N : forall x, In x l -> x = false).
    { intros x Hx. destruct x; [|reflexivity].
      assert (Y : existsb (fun b => b) l = true) by (apply existsb_exists; exists true; auto).
      congruence. }
    apply N in I1, I2. apply orb_false_iff in I1. destruct I1 as [I1 I3].
    apply negb_false_iff in I1, I2, I3.
    destruct (q_track s) as [t|] eqn:Q; [|exfalso; apply (wf_track s W I1); exact Q].
    destruct (fill_state_eq v b s t (wf_max s W) Q I2) as (s' & E & S' & s1 & X1 & X2 & X3).
    exists t, s'. refine (conj eq_refl (conj E (conj S' (conj I3 (conj I1 (conj I2 _)))))).
    exists s1, v, b. auto. }
  destruct c; try discriminate Hc; cbn [exec]; unfold init_state1, init_state2, init_state3, read;
    apply K; cbn; tauto.
Qed.

(** ** Parameter changes *)

Definition is_param (c : call) : bool :=
  match c with CEnergy _ | CAngle _ _ _ | CPhase _ _ _ | CDm _ _ | CDefaults => true | _ => false end.

(** [s'] is [s] with other parameters or energies and no valid state *)
Definition param_frame (s s' : nus) : Prop :=
  s' = put_f_state (f_state (q_flags s')) (put_f_energy (f_energy (q_flags s'))
         (set_q_E (q_E s') (set_q_pars (q_pars s') s))).

Lemma set_angle_cases i j v s :
  set_angle e i j v s = (Threw, s, []) \/
  ((i <= q_numneu s)%nat /\ (j <= q_numneu s)%nat /\ accepts e i j = true /\
   set_angle e i j v s = (Done, put_f_state false (put_p_angle (upd2 (p_angle (q_pars s)) i j v) s), [])).
Proof.
  unfold set_angle, read, throw, modify.
  destruct (Nat.ltb_spec (q_numneu s) i); cbn [orb]; [left; reflexivity|].
  destruct (Nat.ltb_spec (q_numneu s) j); [left; reflexivity|].
  destruct (accepts e i j); [right; auto|left; reflexivity].
Qed.

Lemma set_phase_cases i j v s :
  set_phase e i j v s = (Threw, s, []) \/
  ((i <= q_numneu s)%nat /\ (j <= q_numneu s)%nat /\ accepts e i j = true /\
   set_phase e i j v s = (Done, put_f_state false (put_p_phase (upd2 (p_phase (q_pars s)) i j v) s), [])).
Proof.
  unfold set_phase, read, throw, modify.
  destruct (Nat.ltb_spec (q_numneu s) i); cbn [orb]; [left; reflexivity|].
  destruct (Nat.ltb_spec (q_numneu s) j); [left; reflexivity|].
  destruct (accepts e i j); [right; auto|left; reflexivity].
Qed.

Lemma set_dm_cases i v s :
  set_dm e i v s = (Threw, s, []) \/
  ((i <= q_numneu s)%nat /\ accepts1 e i = true /\
   set_dm e i v s = (Done, put_f_state false (put_p_dm (upd1 (p_dm (q_pars s)) i v) s), [])).
Proof.
  unfold set_dm, read, throw, modify.
  destruct (Nat.ltb_spec (q_numneu s) i); [left; reflexivity|].
  destruct (accepts1 e i); [right; auto|left; reflexivity].
Qed.

Lemma angle_ok i j v s : (i < j)%nat -> (j < 3)%nat -> (3 <= q_numneu s)%nat -> (3 <= e_maxdim e)%nat ->
  set_angle e i j v s = (Done, put_f_state false (put_p_angle (upd2 (p_angle (q_pars s)) i j v) s), []).
Proof.
  intros. unfold set_angle, read, accepts, modify.
  replace (q_numneu s <? i)%nat with false by (symmetry; apply Nat.ltb_ge; lia).
  replace (q_numneu s <? j)%nat with false by (symmetry; apply Nat.ltb_ge; lia).
  replace (i <? j)%nat with true by (symmetry; apply Nat.ltb_lt; lia).
  replace (j <? e_maxdim e)%nat with true by (symmetry; apply Nat.ltb_lt; lia). reflexivity.
Qed.

Lemma dm_ok i v s : (0 < i < 3)%nat -> (3 <= q_numneu s)%nat -> (3 <= e_maxdim e)%nat ->
  set_dm e i v s = (Done, put_f_state false (put_p_dm (upd1 (p_dm (q_pars s)) i v) s), []).
Proof.
  intros. unfold set_dm, read, accepts1, modify.
  replace (q_numneu s <? i)%nat with false by (symmetry; apply Nat.ltb_ge; lia).
  replace (0 <? i)%nat with true by (symmetry; apply Nat.ltb_lt; lia).
  replace (i <? e_maxdim e)%nat with true by (symmetry; apply Nat.ltb_lt; lia). reflexivity.
Qed.

(** one step of a list of parameter changes *)
Definition sets (m : M) (f : pars -> pars) : Prop := forall s,
  (3 <= q_numneu s)%nat -> (q_numneu s <= e_maxdim e)%nat ->
  m s = (Done, put_f_state false (set_q_pars (f (q_pars s)) s), []).

Lemma sets_seq a b f g : sets a f -> sets b g -> sets (a ;; b)%m (fun p => g (f p)).
Proof.
  intros A B s H3 Hm. rewrite seq_eq, A by assumption. rewrite B by assumption.
  dest_nus s. reflexivity.
Qed.

Lemma sets_angle i j v : (i < j)%nat -> (j < 3)%nat ->
  sets (set_angle e i j v) (fun p => set_p_angle (upd2 (p_angle p) i j v) p).
Proof. intros H1 H2 s H3 Hm. rewrite angle_ok by lia. reflexivity. Qed.
Lemma sets_dm i v : (0 < i < 3)%nat ->
  sets (set_dm e i v) (fun p => set_p_dm (upd1 (p_dm p) i v) p).
Proof. intros H1 s H3 Hm. rewrite dm_ok by lia. reflexivity. Qed.
Lemma sets_phase i j v : (i < j)%nat -> (j < 3)%nat ->
  sets (set_phase e i j v) (fun p => set_p_phase (upd2 (p_phase p) i j v) p).
Proof. intros H1 H2 s H3 Hm. rewrite set_phase_eq by lia. reflexivity. Qed.

Lemma set_defaults_eq s : (3 <= q_numneu s)%nat -> (q_numneu s <= e_maxdim e)%nat ->
  exists p, set_defaults e s = (Done, put_f_state false (set_q_pars p s), []) /\
    p_phase p = upd2 (p_phase (q_pars s)) 0 2 0.
Proof.
  intros H3 Hm. unfold set_defaults.
  pose proof (sets_seq _ _ _ _ (sets_angle 0 1 (583638 / 1000000) ltac:(lia) ltac:(lia))
    (sets_seq _ _ _ _ (sets_angle 0 2 (149575 / 1000000) ltac:(lia) ltac:(lia))
    (sets_seq _ _ _ _ (sets_angle 1 2 (855211 / 1000000) ltac:(lia) ltac:(lia))
    (sets_seq _ _ _ _ (sets_dm 1 (7420 / 100000000) ltac:(lia))
    (sets_seq _ _ _ _ (sets_dm 2 (2514 / 1000000) ltac:(lia))
    (sets_phase 0 2 0 ltac:(lia) ltac:(lia))))))) as X.
  eexists. split; [exact (X s H3 Hm)|]. reflexivity.
Qed.

Lemma param_cases c s : wf s -> is_param c = true ->
  exec e c s = (Threw, s, []) \/
  exists s', exec e c s = (Done, s', []) /\ param_frame s s' /\ f_state (q_flags s') = false /\
    (f_energy (q_flags s) = true -> f_energy (q_flags s') = true) /\
    (f_energy (q_flags s') = true -> f_energy (q_flags s) = true \/ exists v, c = CEnergy v).
Proof.
  intros W Hc. destruct c; try discriminate Hc; cbn [exec].
  - unfold set_E, read, throw, modify. destruct (negb _); [left; reflexivity|right].
    eexists. split; [reflexivity|]. unfold param_frame. dest_nus s. cbn. repeat split; eauto.
  - destruct (set_angle_cases i j v s) as [->|(_ & _ & _ & ->)]; [left; reflexivity|right].
    eexists. split; [reflexivity|]. unfold param_frame. dest_nus s. cbn. repeat split; eauto.
  - destruct (set_phase_cases i j v s) as [->|(_ & _ & _ & ->)]; [left; reflexivity|right].
    eexists. split; [reflexivity|]. unfold param_frame. dest_nus s. cbn. repeat split; eauto.
  - destruct (set_dm_cases i v s) as [->|(_ & _ & ->)]; [left; reflexivity|right].
    eexists. split; [reflexivity|]. unfold param_frame. dest_nus s. cbn. repeat split; eauto.
  - destruct (set_defaults_eq s (wf_min s W) (wf_max s W)) as (p & -> & _). right.
    eexists. split; [reflexivity|]. unfold param_frame. dest_nus s. cbn. repeat split; eauto.
Qed.

(** ** All other calls keep parameters, projectors and flags *)

(** what only construction, parameter changes and setting the state touch *)
Definition core (s : nus) :=
  (q_nt s, q_numneu s, q_ne s, q_nrhos s, q_E s, q_pars s, q_proj s, q_h0 s,
   (f_nus (q_flags s), f_energy (q_flags s), f_state (q_flags s))).

Definition core_keeps : nus -> nus -> Prop := keeps core.

Lemma core_refl s : core_keeps s s. Proof. reflexivity. Qed.
Lemma core_trans a b c : core_keeps a b -> core_keeps b c -> core_keeps a c.
Proof. apply keeps_trans. Qed.

Ltac stabc := stab_with core_refl core_trans.

Lemma core_pre_derive x : stable core_keeps (pre_derive x).
Proof. unfold pre_derive, use_interactions. stabc. Qed.

Lemma core_evolve dt : stable core_keeps (evolve e dt).
Proof. unfold evolve. stabc; apply core_pre_derive. Qed.

Lemma core_init_interactions : stable core_keeps (init_interactions e).
Proof. unfold init_interactions, build_tables. stabc. Qed.

Lemma core_evolve_state : stable core_keeps (evolve_state e).
Proof.
  unfold evolve_state, evolve_const, evolve_pos, positivize, set_basis. stabc;
    first [apply core_evolve | apply core_init_interactions].
Qed.

Lemma core_exec c : is_init c = false -> is_param c = false -> stable core_keeps (exec e c).
Proof.
  intros H1 H2. destruct c; try discriminate H1; try discriminate H2; cbn [exec];
    try (unfold set_body, set_track, set_tau, set_gr, set_osc, set_pos, set_scale, set_const,
           set_basis, set_xs, set_sources; stabc; fail).
  - apply core_evolve_state.
  - unfold get_hamiltonian. stabc. apply core_pre_derive.
  - apply core_init_interactions.
Qed.

(** ** Medium and trajectory change only when set *)

Definition place (s : nus) :=
  (q_body s, q_track s, q_offset s, f_body (q_flags s), f_track (q_flags s)).

Definition place_keeps : nus -> nus -> Prop := keeps place.
Lemma place_refl s : place_keeps s s. Proof. reflexivity. Qed.
Lemma place_trans a b c : place_keeps a b -> place_keeps b c -> place_keeps a c.
Proof. apply keeps_trans. Qed.

Ltac stabp := stab_with place_refl place_trans.

Lemma place_pre_derive x : stable place_keeps (pre_derive x).
Proof. unfold pre_derive, use_interactions. stabp. Qed.

Lemma place_evolve dt : stable place_keeps (evolve e dt).
Proof. unfold evolve. stabp; apply place_pre_derive. Qed.

Lemma place_init_interactions : stable place_keeps (init_interactions e).
Proof. unfold init_interactions, build_tables. stabp. Qed.

Lemma place_evolve_state : stable place_keeps (evolve_state e).
Proof.
  unfold evolve_state, evolve_const, evolve_pos, positivize, set_basis. stabp;
    first [apply place_evolve | apply place_init_interactions].
Qed.

Definition is_place (c : call) : bool := match c with CBody _ | CTrack _ => true | _ => false end.

Lemma place_exec c : is_init c = false -> is_place c = false -> stable place_keeps (exec e c).
Proof.
  intros H1 H2. destruct c; try discriminate H1; try discriminate H2; cbn [exec];
    try (unfold set_E, set_angle, set_phase, set_dm, set_defaults, set_tau, set_gr, set_osc,
           set_pos, set_scale, set_const, set_basis, set_xs, set_sources; stabp; fail).
  - apply place_evolve_state.
  - unfold get_hamiltonian. stabp. apply place_pre_derive.
  - apply place_init_interactions.
  - unfold set_defaults, set_angle, set_phase, set_dm. stabp.
Qed.

(** ** Well-formedness *)

Lemma wf_of s s' : q_numneu s' = q_numneu s -> q_ne s' = q_ne s ->
  f_track (q_flags s') = f_track (q_flags s) -> q_track s' = q_track s ->
  (q_offset s' = q_offset s \/ q_offset s' <> None) -> wf s -> wf s'.
Proof.
  intros N NE F T O W. constructor; rewrite ?N, ?NE, ?F, ?T; try apply W.
  destruct O as [->|O]; [apply W|intros _; exact O].
Qed.

Lemma wf_exec c s r s' ev : wf s -> exec e c s = (r, s', ev) -> wf s'.
Proof.
  intros W E.
  destruct (is_init c) eqn:I.
  { destruct (init_cases c s W I) as [X|(t & s1 & T & X & S1 & _ & Ft & _)]; rewrite X in E.
    - injection E as _ <- _. exact W.
    - injection E as _ <- _. apply (wf_of s); try apply S1; try exact W.
      + rewrite (ss_flags _ _ _ S1). reflexivity.
      + rewrite T. apply S1.
      + right. rewrite (ss_offset _ _ _ S1). discriminate. }
  destruct (is_param c) eqn:P.
  { destruct (param_cases c s W P) as [X|(s1 & X & F & _)]; rewrite X in E; injection E as _ <- _.
    - exact W.
    - apply (wf_of s); try exact W; try (rewrite F; reflexivity). left. rewrite F. reflexivity. }
  pose proof (core_exec c I P s) as C. rewrite E in C. unfold core_keeps, keeps, core in C. cbn in C.
  injection C as C1 C2 C3 C4 C5 C6 C7 C8 C9 C10 C11.
  destruct (is_place c) eqn:L.
  - destruct c; try discriminate L; cbn [exec] in E.
    + injection E as _ <- _. apply (wf_of s); try reflexivity; try exact W. left. reflexivity.
    + destruct t as [t|]; cbn [set_track] in E; injection E as _ <- _; [|exact W].
      destruct W. constructor; cbn; try assumption; discriminate || reflexivity.
  - pose proof (place_exec c I L s) as D. rewrite E in D. unfold place_keeps, keeps, place in D. cbn in D.
    injection D as D1 D2 D3 D4 D5.
    apply (wf_of s); try assumption. left. exact D3.
Qed.

End Machine.
