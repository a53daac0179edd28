(** C96: what is read from an ensemble after any history is the interpolation of what the equation says along its
    angles. *)
From Coq Require Import Reals List Arith Bool Lia Lra FunctionalExtensionality.
From Verif Require Import Err XsProofs IntModel XsModel StateModel StateProofs StateHistory StateLaws StateReady StateFrames AtmModel AtmProofs.
From Verif Require Import CMatrix FlavorModel FlavorProofs FlavorEqn FlavorEqnProps AvgProofs SuperModel SuperProofs SuperProps PosProofs PosProps TransProofs TransProps EndModel EndProps FullModel FullSpec FullProofs FullProps.
From Verif Require Import AtmEvalModel AtmEvalProofs AtmLifeModel AtmLifeSpec AtmLifeProofs AtmLifeProofs2.
From Verif Require AtmProps AtmEvalProps.
Import ListNotations.
Local Open Scope R_scope.

Section Reading.
Variable order : list (nat * nat).
Variable m : media.
Variable emission : body -> R -> nat -> nat -> nat -> R.
Variable tab : tabs -> list R -> nt -> itables.
Variable tracks : body -> R -> track.

(** all that is supposed of the ensemble and its life: made for [cos] and [E] in medium [earth] *)
Definition lived_atm (e : env) (mat_of : nat -> vec -> mat) (dot : nat -> vec -> vec -> R) (dec : nat -> nat -> list R -> nat -> nat -> mat)
    (earth : body) (cos E : list R) (numneu : nat) (a0 : atm) (h : list (acall * res)) (a : atm) : Prop :=
  (exists grow t iint x, make_atm e (tracks earth) grow earth cos E numneu t iint x = (Done, Some a0)) /\
  ahist e a0 h a /\ by_ensemble h /\ aoscillating h /\ e_ini_num e true = true /\ good_media m /\
  (forall n, su_repr n (mat_of n) (dot n)) /\ exact_all order m emission tab mat_of dot dec e /\
  Forall (fun p => (fst p < snd p < numneu)%nat) order /\ (forall c, In c cos -> tr_ini (tracks earth c) < tr_fin (tracks earth c)).

Section One.
Variable e : env.
Variable mat_of : nat -> vec -> mat.
Variable dot : nat -> vec -> vec -> R.
Variable dec : nat -> nat -> list R -> nat -> nat -> mat.
Variable earth : body.
Variable cos E : list R.
Variable numneu : nat.
Variable a0 : atm.
Variable h : list (acall * res).
Variable a : atm.
Hypothesis L : lived_atm e mat_of dot dec earth cos E numneu a0 h a.
Variable b : StateModel.basis.
Variable v : nat -> nat -> nat -> nat -> R.
Variable l : list atm.
Hypothesis C : crossed e a0 h b v l.

Definition route (i : nat) : track := tracks earth (nth i cos 0).

Lemma frame_is : a_cos a = cos /\ a_E a = E /\ length (a_nodes a) = length cos /\ a_made a = true /\ a_nodes a <> [].
Proof. clear C.
  destruct L as ((grow & t & iint & x & MK) & H & B & N & IN & GM & SU & EX & OO & LT).
  destruct (hist_nodes e a0 h a (made e (tracks earth) grow earth cos E numneu t iint x a0 MK) H B) as (_ & NE & LL & M).
  assert (Fr : frame_of a = frame_of a0) by (clear -H; induction H as [|h a c r a' H IH EE U]; [reflexivity|]; rewrite <- IH, <- (aexec_frame e c a), EE; reflexivity).
  unfold frame_of in Fr. injection Fr as _ F2 F3 _.
  assert (Q : a_cos a0 = cos /\ a_E a0 = E).
  { pose proof (made_held e (tracks earth) grow earth cos E numneu t iint x a0 MK 0%nat) as HH.
    unfold make_atm in MK. destruct (make_nodes _ _ _ _ _ _ _ _ _ _ _ _) as [r l0]. destruct r; try discriminate MK. destruct l0 as [|s0 l0]; [discriminate MK|]. injection MK as <-.
    cbn in *. split; [reflexivity|]. destruct (HH s0 eq_refl) as (_ & _ & BO). unfold bounds in BO. injection BO as _ _ X _. exact X. }
  destruct Q as (Q1 & Q2). rewrite F2, F3 in *. split; [exact Q1|]. split; [exact Q2|]. split; [rewrite LL, Q1; reflexivity|]. split; assumption.
Qed.

Lemma node_of i : (i < length cos)%nat -> exists s, nth_error (a_nodes a) i = Some s.
Proof. clear C. intro Hi. destruct frame_is as (_ & _ & LL & _). destruct (nth_error (a_nodes a) i) eqn:X; [eauto|]. apply nth_error_None in X. lia. Qed.

(** all nodes are the same object *)
Lemma world_is i s : nth_error (a_nodes a) i = Some s -> object_of s = world a.
Proof. clear C.
  intro Hi. destruct L as ((grow & t & iint & x & MK) & H & B & _).
  destruct (hist_nodes e a0 h a (made e (tracks earth) grow earth cos E numneu t iint x a0 MK) H B) as ((_ & SM) & NE & _).
  unfold world. destruct (a_nodes a) as [|s0 rest] eqn:AN; [congruence|].
  destruct (SM s s0 (nth_error_In _ _ Hi) (or_introl eq_refl)) as [S1 S2 S3 S4 S5 S6 S7 S8 S9 S10].
  unfold object_of. rewrite S1, S2, S3, S4, S5.
  replace (p_angle (q_pars s)) with (p_angle (q_pars s0)) by (extensionality u; extensionality u'; symmetry; apply S6).
  replace (p_phase (q_pars s)) with (p_phase (q_pars s0)) by (extensionality u; extensionality u'; symmetry; apply S7).
  replace (p_dm (q_pars s)) with (p_dm (q_pars s0)) by (extensionality u; symmetry; apply S8).
  unfold switches in S9. injection S9 as T1. congruence.
Qed.

Lemma held_at i s : nth_error (a_nodes a) i = Some s -> fine e (route i) s /\ q_body s = a_earth a /\ exists nr, bounds s = (numneu, length E, E, nr).
Proof. clear C.
  destruct L as ((grow & t & iint & x & MK) & H & B & N & IN & _). intro Hi.
  destruct (hist_held e (tracks earth) grow earth cos E numneu t iint x a0 MK IN h a H B N i s Hi) as (X & Y & Z). eauto.
Qed.

Lemma crossed_at i s : nth_error (a_nodes a) i = Some s -> exists gs, stages tab i l gs /\ on_voyage order m emission dec s (tr_ini (route i)) b (v i) gs.
Proof.
  destruct L as ((grow & t & iint & x & MK) & H & B & N & IN & GM & SU & EX & OO & LT). intro Hi.
  destruct (crossing e order m emission tab mat_of dot dec (tracks earth) grow earth cos E numneu t iint x a0 MK IN GM EX SU OO
    ltac:(intros c Hc; apply Rlt_le, LT, Hc) h a b v l C H B N i s Hi) as (gs & S & O & _). eauto.
Qed.

(** *** each crossing is as long as the trajectory *)
Lemma crossed_tracks h' b' v' l' : crossed e a0 h' b' v' l' -> forall a', ahist e a0 h' a' -> by_ensemble h' -> aoscillating h' ->
  Forall (fun a => forall i s t, nth_error (a_nodes a) i = Some s -> q_track s = Some t -> t = route i) l'.
Proof.
  destruct L as ((grow & t & iint & x & MK) & _ & _ & _ & IN & _).
  induction 1 as [c h1 b1 v1 SC PU|h1 b1 v1 l1 C1 IH EA DN|c r h1 b1 v1 l1 C1 IH HA]; intros a' H B N; [constructor| |].
  - apply Forall_app. pose proof (after_is e a0 _ _ H) as AF. rewrite AF.
    split; [|constructor; [|constructor]].
    + inversion H as [|h2 a2 c2 r2 a3 H' EE U]; subst. apply (IH a2 H'); intros c3 r3 X; [apply (B c3 r3)|apply (N c3 r3)]; right; exact X.
    + intros i s t1 Hi Ht. destruct (hist_held e (tracks earth) grow earth cos E numneu t iint x a0 MK IN _ a' H B N i s Hi) as (F & _).
      pose proof (fi_track _ _ _ F) as X. rewrite Ht in X. injection X as ->. reflexivity.
  - inversion H as [|h2 a2 c2 r2 a3 H' EE U]; subst. apply (IH a2 H'); intros c3 r3 X; [apply (B c3 r3)|apply (N c3 r3)]; right; exact X.
Qed.
Lemma stages_total i gs : stages tab i l gs -> total (legs gs) = INR (length l) * length_of (route i).
Proof.
  destruct L as (_ & H & B & N & _). pose proof (crossed_tracks h b v l C a H B N) as T. clear C. intro S.
  assert (X : Forall (fun g => l_len (sg_leg g) = length_of (route i)) gs /\ length gs = length l).
  { induction S as [|a1 g l1 gs1 (s & bd & tr & S1 & S2 & S3 & ->) S IH]; [split; [constructor|reflexivity]|]. inversion T as [|? ? T1 T2]; subst.
    destruct (IH T2) as (I1 & I2). split; [constructor; [|exact I1]|cbn; congruence]. cbn [stage_of sg_leg l_len]. rewrite (T1 i s tr S1 S3). reflexivity. }
  destruct X as (X1 & <-). clear -X1. induction gs as [|g gs IH]; [cbn; ring|]. inversion X1 as [|? ? X2 X3]; subst. specialize (IH X3).
  change (l_len (sg_leg g) + total (legs gs) = INR (S (length gs)) * length_of (route i)). rewrite IH, X2, S_INR. ring.
Qed.

Lemma voyage_end w t gs A B B' : voyage order m emission w t gs A B -> FullSpec.same w B B' -> voyage order m emission w t gs A B'.
Proof.
  induction 1 as [t A B M|t g gs A B sol L0 S0 D W IH]; intro SB.
  - apply vo_nil. intros i r Hi Hr. eapply meq_trans; [apply M; assumption|apply SB; assumption].
  - eapply vo_leg; eauto.
Qed.

(** the matrices of the nodes *)
Definition mats (i ie r : nat) : mat := match nth_error (a_nodes a) i with Some s => matrices dec s ie r | None => mzero end.

Lemma mats_solved : solved order m emission tab a route b v l mats.
Proof.
  intros i Hi. destruct frame_is as (FC & _). rewrite FC in Hi. destruct (node_of i Hi) as (s & Is).
  destruct (crossed_at i s Is) as (gs & SG & OV). exists gs. split; [exact SG|]. destruct OV as [F O T0 T (Bm & W & EB)].
  rewrite <- (world_is i s Is). eapply voyage_end; [exact W|]. intros ie r Hie Hr. apply meq_sym. unfold mats. rewrite Is. apply EB; assumption.
Qed.

(** *** The view of EvalFlavor *)
Lemma fresh_H s ie : fresh s -> h_osc (q_h0 s) = true -> stored_H s ie = vac (object_of s) (ob_E (object_of s) ie).
Proof.
  intros (_ & F2 & F3) O. unfold stored_H, vac. cbn [object_of ob_n ob_dm ob_E]. rewrite O, F3.
  replace (h_dm (q_h0 s)) with (p_dm (q_pars s)) by (extensionality u; symmetry; apply F2). reflexivity.
Qed.

Lemma shape_at i s : nth_error (a_nodes a) i = Some s ->
  q_numneu s = numneu /\ q_ne s = length E /\ q_E s = E /\ q_nrhos s = ob_nr (world a) /\ ob_n (world a) = numneu /\ ob_ne (world a) = length E /\ (forall j, ob_E (world a) j = nth j E 0).
Proof. clear C.
  intro Is. destruct (held_at i s Is) as (_ & _ & nr & BO). unfold bounds in BO. injection BO as B1 B2 B3 _.
  rewrite <- (world_is i s Is). cbn. rewrite B3. auto 10.
Qed.

Lemma state_at i s ie r : nth_error (a_nodes a) i = Some s -> (ie < length E)%nat -> (r < ob_nr (world a))%nat ->
  meq numneu (matrix dec s (sq_state (q_sq s)) ie r) (FlavorModel.evolve (vac (world a) (nth ie E 0)) (INR (length l) * length_of (route i)) (mats i ie r)) /\
  sq_t (q_sq s) - sq_t0 (q_sq s) = INR (length l) * length_of (route i).
Proof.
  intros Is Hi Hr. destruct (shape_at i s Is) as (S1 & S2 & S3 & S4 & S5 & S6 & S7). destruct (crossed_at i s Is) as (gs & SG & [F O T0 T _]).
  assert (TT : sq_t (q_sq s) - sq_t0 (q_sq s) = INR (length l) * length_of (route i)) by (rewrite T, T0, (stages_total i gs SG); ring).
  split; [|exact TT]. unfold mats. rewrite Is. unfold matrices. destruct (held_at i s Is) as (FI & _). rewrite (fi_basis _ _ _ FI). cbn [basis_of back].
  rewrite (fresh_H s ie F O), (world_is i s Is), S7, TT. apply meq_sym.
  eapply meq_trans; [apply evolve_evolve|]. intros p q _ _. unfold FlavorModel.evolve.
  replace (_ * (_ + - _)) with 0 by ring. rewrite cexp_0. ring.
Qed.

Lemma ini_is : a_ini a = Some true.
Proof.
  destruct L as ((grow & t & iint & x & MK) & H & B & _). clear L. revert a H B. 
  assert (K : forall c a, sets_state c = false -> a_ini (snd (aexec e c a)) = a_ini a).
  { clear. intros c a SC. assert (O : forall m a, a_ini (snd (on_all m a)) = a_ini a) by (intros mm a1; unfold on_all; destruct (AtmModel.each _ 0 _) as [r2 l2]; reflexivity).
    destruct c; try discriminate SC; cbn [aexec].
    - apply O.
    - rewrite O. reflexivity.
    - rewrite O. reflexivity.
    - apply O.
    - destruct (nth_error (a_nodes a) idx); reflexivity.
    - unfold a_evolve. destruct (a_guard a); try reflexivity.
      assert (Sh : a_ini (snd (share_tables e a)) = a_ini a).
      { unfold share_tables. destruct (a_nodes a) as [|s0 rest] eqn:En; [reflexivity|].
        destruct (o_int (q_opts s0)); [|reflexivity]. destruct (init_interactions e s0) as [[r s0'] ev].
        destruct r; try reflexivity. destruct (AtmModel.each _ 0 (s0' :: rest)) as [r2 l2]. reflexivity. }
      destruct (share_tables e a) as [r a1]. cbn in Sh. destruct r; try exact Sh. destruct (a_threads a1) as [k|]; [|exact Sh].
      destruct (if Nat.eqb k 1 then _ else _) as [r2 l2]. exact Sh.
    - reflexivity.
    - destruct (nth_error (a_nodes a) i); [|reflexivity]. destruct (exec e c n) as [[r s'] ev]. reflexivity. }
  pose proof (made e (tracks earth) grow earth cos E numneu t iint x a0 MK) as Mk.
  assert (INI : forall h a c r a', ahist e a0 h a -> by_ensemble h -> aexec e c a = (r, a') -> sets_state c = true -> (r = Done /\ a_ini a' = Some true) \/ a' = a).
  { intros h1 a1 c r a' H1 B1 EE SC. assert (Hc : (exists d0 d1 d2 v b, c = AInit3 d0 d1 d2 v b) \/ (exists d0 d1 d2 d3 v b, c = AInit4 d0 d1 d2 d3 v b)) by (destruct c; try discriminate SC; [left|right]; repeat eexists).
    destruct (AtmProps.c73_set_state e a0 h1 a1 Mk H1 B1 c Hc) as [(l2 & X & _)|X]; rewrite EE in X; injection X as -> ->; [left; split; reflexivity|right; reflexivity]. }
  induction C as [c h b v SC PU|h b v l C1 IH EA DN|c r h b v l C1 IH HA]; intros a' H B; inversion H as [|h2 a2 c2 r2 a3 H' EE U]; subst;
    assert (B' : by_ensemble h) by (intros c3 r3 X; apply (B c3 r3); right; exact X).
  - cbn [aexec] in EE. destruct c; try discriminate SC; cbn [aexec] in EE; unfold a_init3, a_init4 in EE; repeat (destruct (negb _) in EE; [discriminate EE|]); unfold a_fill in EE;
      destruct (AtmModel.each _ 0 _) as [r4 l4]; destruct r4; try discriminate EE; injection EE as <-; reflexivity.
  - rewrite <- (IH C1 a2 H' B'). change a' with (snd (Done, a')). rewrite <- EE. apply K. reflexivity.
  - destruct (sets_state c) eqn:SC.
    + destruct (INI h a2 c r a' H' B' EE SC) as [(_ & X)| ->]; [exact X|exact (IH C1 a2 H' B')].
    + rewrite <- (IH C1 a2 H' B'). change a' with (snd (r, a')). rewrite <- EE. apply K. exact SC.
Qed.

(** contents reported by the nodes *)
Lemma content_at i s ie r f : nth_error (a_nodes a) i = Some s -> (ie < length E)%nat -> (r < ob_nr (world a))%nat -> (f < numneu)%nat ->
  content order dec s ie r f = expect (ob_n (world a)) (flavour order (FullSpec.at_node (world a) ie r) f) (mats i ie r).
Proof.
  intros Is Hi Hr Hf. destruct (shape_at i s Is) as (S1 & S2 & S3 & S4 & S5 & S6 & S7). destruct (crossed_at i s Is) as (gs & SG & [F O T0 T _]).
  destruct (held_at i s Is) as (FI & _). assert (OO : Forall (fun p => (fst p < snd p < q_numneu s)%nat) order) by (rewrite S1; apply L).
  assert (RH : read_H s ie = stored_H s ie) by (destruct F as (_ & _ & F); unfold read_H, stored_H; rewrite O, (fi_osc _ _ _ FI), F; reflexivity).
  unfold content. rewrite RH.
  pose proof (read_back (q_numneu s) (basis_of (o_basis (q_opts s))) (stored_H s ie) (sq_t (q_sq s)) (sq_t0 (q_sq s)) (matrix dec s (sq_state (q_sq s)) ie r) (stored_P order s r f)) as X.
  pose proof (stored_flavour order s ie r f F ltac:(congruence) ltac:(congruence) OO) as SF.
  change (settings_of s ie r) with (FullSpec.at_node (object_of s) ie r) in SF. rewrite SF, (world_is i s Is) in X. unfold mats, matrices. rewrite Is, S5, <- S1. rewrite <- X.
  rewrite (world_is i s Is) in SF. unfold eval_flavor. rewrite SF. destruct (basis_of (o_basis (q_opts s))); reflexivity.
Qed.

Variable bd : body.
Hypothesis BD : a_earth a = Some bd.
Let o := view order dec tracks a.

Lemma view_fits : fits (ob_nr (world a)) numneu o.
Proof.
  destruct frame_is as (F1 & F2 & F3 & F4 & F5).
  assert (SH : forall s, In s (a_nodes a) -> q_numneu s = numneu /\ q_ne s = length E /\ q_nrhos s = ob_nr (world a)).
  { intros s Hs. apply In_nth_error in Hs. destruct Hs as (i & Is). destruct (shape_at i s Is) as (S1 & S2 & S3 & S4 & _). auto. }
  constructor; unfold o, view; cbn.
  - rewrite map_length. congruence.
  - intros nd Hn. apply in_map_iff in Hn. destruct Hn as (s & <- & Hs). cbn. rewrite map_length, seq_length, F2. apply SH, Hs.
  - intros nd r Hn Hr. apply in_map_iff in Hn. destruct Hn as (s & <- & Hs). cbn in Hr. apply in_map_iff in Hr. destruct Hr as (ie & <- & _).
    rewrite map_length, seq_length. apply SH, Hs.
  - unfold first_P. destruct (a_nodes a) as [|s rest] eqn:AN; [congruence|]. rewrite map_length, seq_length. apply SH. left. reflexivity.
  - unfold first_P. destruct (a_nodes a) as [|s rest] eqn:AN; [intros r []|]. intros r Hr. apply in_map_iff in Hr. destruct Hr as (ie & <- & _).
    rewrite map_length, seq_length. apply SH. left. reflexivity.
  - rewrite BD. discriminate.
Qed.

Lemma view_ready : AtmEvalProps.ready o.
Proof. split; [exact ini_is|apply frame_is]. Qed.

Lemma nth_map_seq {A} (f : nat -> A) k n d : (k < n)%nat -> nth k (map f (seq 0 n)) d = f k.
Proof. intro H. rewrite (nth_indep _ d (f 0%nat)) by (rewrite map_length, seq_length; exact H). rewrite map_nth, seq_nth by exact H. reflexivity. Qed.

Lemma nth_view i s : nth_error (a_nodes a) i = Some s -> nth i (ea_nodes o) dnode = node_view dec s.
Proof.
  intro Is. unfold o, view. cbn [ea_nodes]. rewrite (nth_indep _ dnode (node_view dec s)) by (rewrite map_length; apply nth_error_Some; congruence).
  rewrite map_nth. f_equal. exact (nth_error_nth _ _ _ Is).
Qed.
Lemma view_rho i s j r : nth_error (a_nodes a) i = Some s -> (j < length E)%nat -> (r < ob_nr (world a))%nat ->
  rho_at o i j r = matrix dec s (sq_state (q_sq s)) j r.
Proof.
  intros Is Hj Hr. destruct (shape_at i s Is) as (S1 & S2 & S3 & S4 & _). unfold rho_at. rewrite (nth_view i s Is). cbn [node_view en_rho].
  rewrite nth_map_seq by congruence. rewrite nth_map_seq by congruence. reflexivity.
Qed.
Lemma view_proj r f j : (r < ob_nr (world a))%nat -> (f < numneu)%nat -> proj_at o r f = flavour order (FullSpec.at_node (world a) j r) f.
Proof.
  intros Hr Hf. destruct frame_is as (_ & _ & F3 & _ & F5). unfold proj_at, o, view, first_P. cbn [ea_proj].
  destruct (a_nodes a) as [|s rest] eqn:AN; [congruence|]. assert (Is : nth_error (a_nodes a) 0 = Some s) by (rewrite AN; reflexivity).
  destruct (shape_at 0 s Is) as (S1 & S2 & S3 & S4 & S5 & _). rewrite nth_map_seq by congruence. rewrite nth_map_seq by congruence.
  destruct (crossed_at 0 s Is) as (gs & _ & [F _ _ _ _]). rewrite (stored_flavour order s j r f F) by (congruence || (rewrite S1; apply L)).
  change (settings_of s j r) with (FullSpec.at_node (object_of s) j r). rewrite (world_is 0 s Is). reflexivity.
Qed.
Lemma view_H enu r : ea_h0 o enu r = vac (world a) enu.
Proof.
  destruct frame_is as (_ & _ & F3 & _ & F5). unfold o, view, first_H. cbn [ea_h0].
  destruct (a_nodes a) as [|s rest] eqn:AN; [congruence|]. assert (Is : nth_error (a_nodes a) 0 = Some s) by (rewrite AN; reflexivity).
  destruct (crossed_at 0 s Is) as (gs & _ & [(_ & F2 & _) _ _ _ _]). destruct (held_at 0 s Is) as (FI & _). rewrite (fi_osc _ _ _ FI).
  rewrite <- (world_is 0 s Is). unfold vac. cbn [object_of ob_n ob_dm]. f_equal. extensionality u. apply F2.
Qed.
Lemma route_pos i : (i < length cos)%nat -> 0 < length_of (route i).
Proof.
  intro Hi. destruct L as (_ & _ & _ & _ & _ & _ & _ & _ & _ & LT). pose proof (LT _ (nth_In cos 0 Hi)) as X. unfold length_of, route. lra.
Qed.
Lemma view_fraction i : (i < length cos)%nat -> (0 < length E)%nat -> (0 < ob_nr (world a))%nat -> fraction o i = INR (length l).
Proof.
  intros Hi HE Hr. destruct (node_of i Hi) as (s & Is). unfold fraction. rewrite (nth_view i s Is). cbn [node_view en_t en_t0 en_len].
  destruct (held_at i s Is) as (FI & _). rewrite (fi_track _ _ _ FI). destruct (state_at i s 0 0 Is HE Hr) as (_ & ->).
  pose proof (route_pos i Hi). field. lra.
Qed.

Lemma expect_turn n H T P A : expect n (FlavorModel.evolve H T P) A = expect n P (FlavorModel.evolve H (- T) A).
Proof. pose proof (read_back n BFlavor H T 0 A P) as X. cbn [back] in X. rewrite Rminus_0_r in X. exact X. Qed.

Lemma corner_is f costh enu r i i' j : (f < numneu)%nat -> (r < ob_nr (world a))%nat -> (S i < length cos)%nat -> (i' < length cos)%nat -> (j < length E)%nat ->
  corner FlavorModel.evolve (first_dim a) o f costh enu r 0 i i' j =
  taken order (world a) route (length l) mats f r (length_of (tracks bd costh)) enu i' j.
Proof.
  intros Hf Hr Hi Hi' Hj. unfold corner, turned_proj, taken. rewrite (view_proj r f j Hr Hf), view_H, !view_fraction by lia.
  destruct (node_of i' Hi') as (s & Is). rewrite (view_rho i' s j r Is Hj Hr). destruct (shape_at i' s Is) as (S1 & S2 & S3 & S4 & S5 & S6 & S7).
  assert (FD : first_dim a = numneu).
  { unfold first_dim. destruct frame_is as (_ & _ & _ & _ & F5). destruct (a_nodes a) as [|s0 rest] eqn:AN; [congruence|].
    assert (I0 : nth_error (a_nodes a) 0 = Some s0) by (rewrite AN; reflexivity). apply (shape_at 0 s0 I0). }
  rewrite FD, S5, expect_turn. apply expect_meq; [apply meq_refl|]. unfold moved. rewrite S7.
  unfold track_length, o, view. cbn [ea_earth]. rewrite BD.
  replace (- ((length_of (tracks bd costh) + 0) * ((INR (length l) + INR (length l)) / 2))) with (- (INR (length l) * length_of (tracks bd costh))) by field.
  apply evolve_meq. apply (state_at i' s j r Is Hj Hr).
Qed.

Hypothesis IC : increasing cos.
Hypothesis IE : increasing E.
Hypothesis LC : (2 <= length cos)%nat.
Hypothesis LE : (2 <= length E)%nat.

Lemma kinds_le r : (r < ob_nr (world a))%nat -> (r <= 1)%nat.
Proof.
  intro Hr. destruct (node_of 0 ltac:(lia)) as (s & Is). destruct (shape_at 0 s Is) as (_ & _ & _ & S4 & _). destruct (held_at 0 s Is) as (FI & _).
  destruct (fi_shapes _ _ _ FI) as (H1 & H2 & _). destruct (q_nt s) eqn:NT; [rewrite H2 in S4 by congruence|rewrite H2 in S4 by congruence|rewrite H1 in S4 by congruence]; lia.
Qed.

Lemma reading f costh enu r : (f < numneu)%nat -> (r < ob_nr (world a))%nat -> within cos costh -> within E enu ->
  exists val, read_atm order dec tracks a f costh enu r = Ok val /\
    interpolated order (world a) route (length l) mats cos E f r costh (length_of (tracks bd costh)) enu val.
Proof.
  intros Hf Hr WC WE. destruct frame_is as (F1 & F2 & _).
  assert (SO : AtmEvalProps.sorted o) by (unfold AtmEvalProps.sorted, o, view; cbn; rewrite F1, F2; auto).
  destruct (AtmEvalProps.eval_bilinear FlavorModel.evolve (first_dim a) (ob_nr (world a)) numneu o f costh enu r 0 view_fits view_ready SO Hf Hr (kinds_le r Hr)) as (i & j & _ & _ & B1 & B2 & EV);
    [unfold o, view; cbn; rewrite F1; exact WC|unfold o, view; cbn; rewrite F2; exact WE|].
  assert (B1' : bracket cos costh i) by (unfold o, view in B1; cbn in B1; rewrite F1 in B1; exact B1).
  assert (B2' : bracket E enu j) by (unfold o, view in B2; cbn in B2; rewrite F2 in B2; exact B2).
  eexists. split; [exact EV|]. exists i, j. split; [exact B1'|]. split; [exact B2'|]. cbv zeta. unfold bilinear.
  destruct B1' as (X1 & _), B2' as (X2 & _). rewrite !corner_is by (assumption || lia). unfold o, view. cbn [ea_cos ea_E]. rewrite F1, F2. reflexivity.
Qed.

(** at a node of both grids *)
Lemma reading_grid i j f r : (forall k, (k < length cos)%nat -> length_of (tracks bd (nth k cos 0)) = length_of (route k)) ->
  (i < length cos)%nat -> (j < length E)%nat -> (f < numneu)%nat -> (r < ob_nr (world a))%nat ->
  read_atm order dec tracks a f (nth i cos 0) (nth j E 0) r = Ok (expect (ob_n (world a)) (flavour order (FullSpec.at_node (world a) j r) f) (mats i j r)).
Proof.
  intros LL Hi Hj Hf Hr. destruct frame_is as (F1 & F2 & F3 & _ & F5).
  assert (SO : AtmEvalProps.sorted o) by (unfold AtmEvalProps.sorted, o, view; cbn; rewrite F1, F2; auto).
  assert (C1 : ea_cos o = cos) by exact F1. assert (C2 : ea_E o = E) by exact F2.
  pose proof (AtmEvalProps.c58_node (first_dim a) (ob_nr (world a)) numneu o f i j r (INR (length l)) view_fits view_ready SO Hf Hr (kinds_le r Hr)) as X.
  rewrite C1, C2 in X. specialize (X Hi Hj). cbv zeta in X. unfold read_atm. fold o. rewrite X; clear X.
  - f_equal. destruct (node_of i Hi) as (s & Is). rewrite (nth_view i s Is), (view_rho i s j r Is Hj Hr), view_H. cbn [node_view en_t en_t0].
    destruct (shape_at i s Is) as (S1 & S2 & S3 & S4 & S5 & S6 & S7). destruct (state_at i s j r Is Hj Hr) as (ST & TT).
    assert (FD : first_dim a = numneu).
    { unfold first_dim. destruct (a_nodes a) as [|s0 rest] eqn:AN; [congruence|].
      assert (I0 : nth_error (a_nodes a) 0 = Some s0) by (rewrite AN; reflexivity). apply (shape_at 0 s0 I0). }
    unfold eval_flavor, evolved. rewrite FD, S5, (view_proj r f j Hr Hf), TT.
    assert (EQ : meq numneu (FlavorModel.evolve (vac (world a) (nth j E 0)) (- (INR (length l) * length_of (route i))) (matrix dec s (sq_state (q_sq s)) j r)) (mats i j r)).
    { eapply meq_trans; [apply evolve_meq, ST|]. eapply meq_trans; [apply evolve_evolve|]. intros p q _ _. unfold FlavorModel.evolve.
      replace (_ * (- _ + _)) with 0 by ring. rewrite cexp_0. ring. }
    rewrite <- (expect_meq numneu _ _ _ _ (meq_refl _ _) EQ). apply expect_turn.
  - intros k Hk. destruct (node_of k Hk) as (s & Is). rewrite (nth_view k s Is). cbn [node_view en_len en_t en_t0].
    destruct (held_at k s Is) as (FI & _). rewrite (fi_track _ _ _ FI). pose proof (route_pos k Hk) as RP. split; [lra|]. split.
    + unfold track_length, o, view. cbn [ea_earth]. rewrite BD. symmetry. apply LL, Hk.
    + assert (Z : (0 < length E)%nat) by lia. assert (Z' : (0 < ob_nr (world a))%nat) by lia. destruct (state_at k s 0 0 Is Z Z') as (_ & ->). reflexivity.
Qed.
End One.

(** taus only with both kinds *)
Lemma stages_fair e mat_of dot dec earth cos E numneu a0 h a b v l : lived_atm e mat_of dot dec earth cos E numneu a0 h a -> crossed e a0 h b v l ->
  forall i gs, (i < length cos)%nat -> stages tab i l gs -> Forall (sound m) gs -> Forall (fair m (world a)) gs.
Proof.
  intros L C i gs Hi SG SO.
  assert (K : exists nr, (forall s, nth_error (a_nodes a) i = Some s -> q_nrhos s = nr) /\
    Forall (fun a1 => forall s, nth_error (a_nodes a1) i = Some s -> o_tau (q_opts s) = true -> nr = 2%nat) l).
  { destruct L as ((grow & t & iint & x & MK) & H & B & N & IN & _). exists (if nt_eqb t IntModel.Both then 2%nat else 1%nat). split.
    - intros s Is. destruct (hist_held e (tracks earth) grow earth cos E numneu t iint x a0 MK IN _ a H B N i s Is) as (_ & _ & BO). unfold bounds in BO. injection BO as _ _ _ X. exact X.
    - clear SG SO. revert a H B N. induction C as [c h1 b1 v1 SC PU|h1 b1 v1 l1 C1 IH EA DN|c r h1 b1 v1 l1 C1 IH HA]; intros a' H B N; [constructor| |].
      + apply Forall_app. rewrite (after_is e a0 _ _ H). split; [|constructor; [|constructor]].
        * inversion H as [|h2 a2 c2 r2 a3 H' EE U]; subst. apply (IH a2 H'); intros c3 r3 X; [apply (B c3 r3)|apply (N c3 r3)]; right; exact X.
        * intros s Is OT. destruct (hist_held e (tracks earth) grow earth cos E numneu t iint x a0 MK IN _ a' H B N i s Is) as (FI & _ & BO). unfold bounds in BO. injection BO as _ _ _ X.
          destruct (fi_shapes _ _ _ FI) as (H1 & _ & H3). rewrite <- X. apply H1, H3, OT.
      + inversion H as [|h2 a2 c2 r2 a3 H' EE U]; subst. apply (IH a2 H'); intros c3 r3 X; [apply (B c3 r3)|apply (N c3 r3)]; right; exact X. }
  destruct K as (nr & K1 & K2). destruct (node_of e mat_of dot dec earth cos E numneu a0 h a L i Hi) as (s & Is).
  assert (NR : ob_nr (world a) = nr).
  { rewrite <- (world_is e mat_of dot dec earth cos E numneu a0 h a L i s Is). exact (K1 s Is). }
  clear C. revert SO K2. induction SG as [|a1 g l1 gs1 (s1 & bd & tr & S1 & S2 & S3 & ->) SG IH]; intros SO K2; [constructor|].
  inversion SO as [|? ? SO1 SO2]; subst. inversion K2 as [|? ? K3 K4]; subst. constructor; [|apply IH; assumption].
  split; [apply SO1|]. split; [apply SO1|]. cbn [stage_of sg_tau]. intro OT. exact (K3 s1 S1 OT).
Qed.

(** density and cross sections of all stages are not negative *)
Definition sound_all (a : atm) (l : list atm) : Prop := forall i gs, (i < length (a_cos a))%nat -> stages tab i l gs -> Forall (sound m) gs.

Lemma stages_unique i l gs gs' : stages tab i l gs -> stages tab i l gs' -> gs = gs'.
Proof.
  intro S1. revert gs'. induction S1 as [|a g l gs (s & b & t & A1 & A2 & A3 & ->) S1 IH]; intros gs' S2; inversion S2 as [|? ? ? ? (s' & b' & t' & B1 & B2 & B3 & ->)]; subst; [reflexivity|].
  f_equal; [congruence|apply IH; assumption].
Qed.

(** solutions agree *)
Lemma solved_unique e mat_of dot dec earth cos E numneu a0 h a b v l B B' : lived_atm e mat_of dot dec earth cos E numneu a0 h a -> crossed e a0 h b v l ->
  sound_all a l -> solved order m emission tab a (route earth cos) b v l B -> solved order m emission tab a (route earth cos) b v l B' ->
  forall i ie r, (i < length cos)%nat -> (ie < length E)%nat -> (r < ob_nr (world a))%nat -> meq (ob_n (world a)) (B i ie r) (B' i ie r).
Proof.
  intros L C SO SB SB' i ie r Hi Hie Hr. destruct (frame_is e mat_of dot dec earth cos E numneu a0 h a L) as (FC & _).
  destruct (SB i ltac:(congruence)) as (gs & S1 & V1). destruct (SB' i ltac:(congruence)) as (gs' & S2 & V2). rewrite <- (stages_unique _ _ _ _ S1 S2) in V2.
  pose proof (stages_fair e mat_of dot dec earth cos E numneu a0 h a b v l L C i gs Hi S1 (SO i gs ltac:(congruence) S1)) as FA.
  destruct (node_of e mat_of dot dec earth cos E numneu a0 h a L i Hi) as (s & Is).
  destruct (shape_at e mat_of dot dec earth cos E numneu a0 h a L i s Is) as (S3 & _ & _ & _ & S5 & S6 & _).
  destruct (held_at e mat_of dot dec earth cos E numneu a0 h a L i s Is) as (FI & _).
  assert (OO : Forall (fun p => (fst p < snd p < ob_n (world a))%nat) order) by (rewrite S5; apply L).
  apply (voyage_upper order m emission ltac:(apply L) (world a) 0 _ gs _ _ (B i) (B' i) ltac:(rewrite S5, <- S3; apply FI) (ordered_ok _ _ OO) FA V1 V2); [|rewrite S6; lia|exact Hr].
  intros e1 r1 _ _. apply meq_refl.
Qed.

(** ** C96 *)
(** Whatever was done to the ensemble before: after a state is set and the ensemble evolved any number of times, every
    node shows what the equation along its angle says. *)
Theorem c96_nodes e mat_of dot dec earth cos E numneu a0 h a b v l : lived_atm e mat_of dot dec earth cos E numneu a0 h a -> crossed e a0 h b v l ->
  exists B, solved order m emission tab a (route earth cos) b v l B /\
  forall i s ie r f, nth_error (a_nodes a) i = Some s -> (ie < length E)%nat -> (r < ob_nr (world a))%nat -> (f < numneu)%nat ->
    content order dec s ie r f = expect numneu (flavour order (FullSpec.at_node (world a) ie r) f) (B i ie r).
Proof.
  intros L C. exists (mats dec a). split; [exact (mats_solved e mat_of dot dec earth cos E numneu a0 h a L b v l C)|].
  intros i s ie r f Is Hi Hr Hf. destruct (shape_at e mat_of dot dec earth cos E numneu a0 h a L i s Is) as (_ & _ & _ & _ & S5 & _).
  rewrite <- S5 at 1. exact (content_at e mat_of dot dec earth cos E numneu a0 h a L b v l C i s ie r f Is Hi Hr Hf).
Qed.

(** In between, EvalFlavor is the bilinear interpolation of the contents of the four neighbours, each moved to the energy
    asked for and to the length of the trajectory asked for, times the number of crossings. *)
Theorem c96_reading e mat_of dot dec earth cos E numneu a0 h a b v l bd : lived_atm e mat_of dot dec earth cos E numneu a0 h a -> crossed e a0 h b v l ->
  a_earth a = Some bd -> increasing cos -> increasing E -> (2 <= length cos)%nat -> (2 <= length E)%nat ->
  exists B, solved order m emission tab a (route earth cos) b v l B /\
  forall f costh enu r, (f < numneu)%nat -> (r < ob_nr (world a))%nat -> within cos costh -> within E enu ->
    exists val, read_atm order dec tracks a f costh enu r = Ok val /\
      interpolated order (world a) (route earth cos) (length l) B cos E f r costh (length_of (tracks bd costh)) enu val.
Proof.
  intros L C BD IC IE LC LE. exists (mats dec a). split; [exact (mats_solved e mat_of dot dec earth cos E numneu a0 h a L b v l C)|].
  exact (reading e mat_of dot dec earth cos E numneu a0 h a L b v l C bd BD IC IE LC LE).
Qed.

(** The equation settles the reading. *)
Theorem c96_settled e mat_of dot dec earth cos E numneu a0 h a b v l bd B : lived_atm e mat_of dot dec earth cos E numneu a0 h a -> crossed e a0 h b v l ->
  a_earth a = Some bd -> increasing cos -> increasing E -> (2 <= length cos)%nat -> (2 <= length E)%nat ->
  sound_all a l -> solved order m emission tab a (route earth cos) b v l B ->
  forall f costh enu r, (f < numneu)%nat -> (r < ob_nr (world a))%nat -> within cos costh -> within E enu ->
    exists val, read_atm order dec tracks a f costh enu r = Ok val /\
      interpolated order (world a) (route earth cos) (length l) B cos E f r costh (length_of (tracks bd costh)) enu val.
Proof.
  intros L C BD IC IE LC LE SO SB f costh enu r Hf Hr WC WE.
  destruct (reading e mat_of dot dec earth cos E numneu a0 h a L b v l C bd BD IC IE LC LE f costh enu r Hf Hr WC WE) as (val & V & i & j & B1 & B2 & EQ).
  exists val. split; [exact V|]. exists i, j. split; [exact B1|]. split; [exact B2|]. cbv zeta in *. rewrite EQ. clear EQ V.
  pose proof (solved_unique e mat_of dot dec earth cos E numneu a0 h a b v l _ B L C SO (mats_solved e mat_of dot dec earth cos E numneu a0 h a L b v l C) SB) as U.
  destruct B1 as (X1 & _), B2 as (X2 & _).
  assert (Q : forall i j, (i < length cos)%nat -> (j < length E)%nat ->
    taken order (world a) (route earth cos) (length l) (mats dec a) f r (length_of (tracks bd costh)) enu i j = taken order (world a) (route earth cos) (length l) B f r (length_of (tracks bd costh)) enu i j).
  { intros i1 j1 H1 H2. unfold taken, moved. apply expect_meq; [apply meq_refl|]. apply evolve_meq, evolve_meq, U; assumption. }
  rewrite !Q by (assumption || lia). reflexivity.
Qed.

(** At an angle and energy of the grids the interpolation gives what the equation says there, if the medium of now has
    trajectories as long as those the ensemble was made with; and it is what the node itself reports. *)
Theorem c96_grid e mat_of dot dec earth cos E numneu a0 h a b v l bd : lived_atm e mat_of dot dec earth cos E numneu a0 h a -> crossed e a0 h b v l ->
  a_earth a = Some bd -> increasing cos -> increasing E -> (2 <= length cos)%nat -> (2 <= length E)%nat ->
  (forall k, (k < length cos)%nat -> length_of (tracks bd (nth k cos 0)) = length_of (route earth cos k)) ->
  exists B, solved order m emission tab a (route earth cos) b v l B /\
  forall i s j f r, nth_error (a_nodes a) i = Some s -> (j < length E)%nat -> (f < numneu)%nat -> (r < ob_nr (world a))%nat ->
    read_atm order dec tracks a f (nth i cos 0) (nth j E 0) r = Ok (expect numneu (flavour order (FullSpec.at_node (world a) j r) f) (B i j r)) /\
    read_atm order dec tracks a f (nth i cos 0) (nth j E 0) r = Ok (content order dec s j r f).
Proof.
  intros L C BD IC IE LC LE LL. exists (mats dec a). split; [exact (mats_solved e mat_of dot dec earth cos E numneu a0 h a L b v l C)|].
  intros i s j f r Is Hj Hf Hr. destruct (frame_is e mat_of dot dec earth cos E numneu a0 h a L) as (_ & _ & F3 & _).
  assert (Hi : (i < length cos)%nat) by (rewrite <- F3; apply nth_error_Some; congruence).
  destruct (shape_at e mat_of dot dec earth cos E numneu a0 h a L i s Is) as (_ & _ & _ & _ & S5 & _).
  pose proof (reading_grid e mat_of dot dec earth cos E numneu a0 h a L b v l C bd BD IC IE LC LE i j f r LL Hi Hj Hf Hr) as X.
  rewrite (content_at e mat_of dot dec earth cos E numneu a0 h a L b v l C i s j r f Is Hj Hr Hf). rewrite S5 in X |- *. split; exact X.
Qed.

Lemma psd_evolve n H t A : psd n A -> psd n (FlavorModel.evolve H t A).
Proof.
  intros P D. specialize (P (FlavorModel.evolve H (- t) D)).
  assert (Q : forall X, meq n (FlavorModel.evolve H t (FlavorModel.evolve H (- t) X)) X).
  { intro X. eapply meq_trans; [apply evolve_evolve|]. intros p q _ _. unfold FlavorModel.evolve. replace (_ * (t + - t)) with 0 by ring. rewrite cexp_0. ring. }
  assert (DG : forall X, meq n (dagger (FlavorModel.evolve H (- t) X)) (FlavorModel.evolve H (- t) (dagger X))).
  { intros X p q _ _. unfold dagger, FlavorModel.evolve. rewrite conj_mult, cexp_conj. f_equal. f_equal. ring. }
  assert (EQ : trace n (mmult n (dagger D) (mmult n (FlavorModel.evolve H t A) D)) = trace n (mmult n (dagger (FlavorModel.evolve H (- t) D)) (mmult n A (FlavorModel.evolve H (- t) D)))); [|rewrite EQ; exact P].
  rewrite <- (evolve_shift n H t (dagger (FlavorModel.evolve H (- t) D)) (mmult n A (FlavorModel.evolve H (- t) D))). apply trace_meq, mmult_meq.
  - apply meq_sym. eapply meq_trans; [apply evolve_meq, DG|apply Q].
  - apply meq_sym. eapply meq_trans; [apply evolve_mult|]. apply mmult_meq; [apply meq_refl|apply Q].
Qed.

(** What is put in and emitted is not negative: nothing read is, wherever it is asked for. *)
Theorem c96_nonneg e mat_of dot dec earth cos E numneu a0 h a b v l bd : lived_atm e mat_of dot dec earth cos E numneu a0 h a -> crossed e a0 h b v l ->
  a_earth a = Some bd -> increasing cos -> increasing E -> (2 <= length cos)%nat -> (2 <= length E)%nat ->
  sound_all a l -> (forall b p ie r f, 0 <= emission b p ie r f) ->
  (forall i ie r f, (i < length cos)%nat -> (ie < length E)%nat -> (r < ob_nr (world a))%nat -> (f < numneu)%nat -> 0 <= v i ie r f) ->
  forall f costh enu r, (f < numneu)%nat -> (r < ob_nr (world a))%nat -> within cos costh -> within E enu ->
    exists val, read_atm order dec tracks a f costh enu r = Ok val /\ 0 <= val.
Proof.
  intros L C BD IC IE LC LE SO EM V f costh enu r Hf Hr WC WE.
  destruct (reading e mat_of dot dec earth cos E numneu a0 h a L b v l C bd BD IC IE LC LE f costh enu r Hf Hr WC WE) as (val & RD & i & j & B1 & B2 & EQ).
  exists val. split; [exact RD|]. cbv zeta in EQ. rewrite EQ. clear EQ RD.
  pose proof (mats_solved e mat_of dot dec earth cos E numneu a0 h a L b v l C) as SB.
  destruct (frame_is e mat_of dot dec earth cos E numneu a0 h a L) as (FC & _).
  assert (OO : Forall (fun p => (fst p < snd p < numneu)%nat) order) by apply L.
  assert (Q : forall i j, (i < length cos)%nat -> (j < length E)%nat -> 0 <= taken order (world a) (route earth cos) (length l) (mats dec a) f r (length_of (tracks bd costh)) enu i j).
  { intros i1 j1 H1 H2. destruct (SB i1 ltac:(congruence)) as (gs & S1 & V1).
    pose proof (stages_fair e mat_of dot dec earth cos E numneu a0 h a b v l L C i1 gs H1 S1 (SO i1 gs ltac:(congruence) S1)) as FA.
    destruct (node_of e mat_of dot dec earth cos E numneu a0 h a L i1 H1) as (s & Is).
    destruct (shape_at e mat_of dot dec earth cos E numneu a0 h a L i1 s Is) as (S3 & _ & _ & _ & S5 & S6 & S7).
    destruct (held_at e mat_of dot dec earth cos E numneu a0 h a L i1 s Is) as (FI & _).
    assert (PO : pairs_ok (ob_n (world a)) order) by (rewrite S5; exact (ordered_ok _ _ OO)).
    unfold taken, moved. apply psd_content; [apply (flavour_projector order (world a) PO); congruence|]. apply psd_evolve, psd_evolve.
    apply (voyage_psd order m emission ltac:(apply L) (world a) (tr_ini (route earth cos i1)) gs (put_in order (world a) (basis_of b) (v i1)) (mats dec a i1) ltac:(rewrite S5, <- S3; apply FI) PO FA); try assumption.
    - intros k Hk. rewrite !S7. rewrite S6 in Hk. left. apply IE; lia.
    - intros e1 r1 E1 R1. apply (ini_psd order (FullSpec.at_node (world a) e1 r1) (basis_of b) (v i1 e1 r1) PO). intros q Hq. cbn in Hq. apply V; congruence.
    - congruence. }
  pose proof (weight_unit _ _ _ IC B1) as W1. pose proof (weight_unit _ _ _ IE B2) as W2. destruct B1 as (X1 & _), B2 as (X2 & _). unfold mix.
  assert (P : forall w x y, 0 <= w <= 1 -> 0 <= x -> 0 <= y -> 0 <= (1 - w) * x + w * y).
  { intros w x y Hw Hx Hy. assert (0 <= (1 - w) * x) by (apply Rmult_le_pos; lra). assert (0 <= w * y) by (apply Rmult_le_pos; lra). lra. }
  apply P; [exact W1|apply P; [exact W2|apply Q; lia|apply Q; lia]|apply P; [exact W2|apply Q; lia|apply Q; lia]].
Qed.

(** A node is a lone object: one of whatever past with the same settings, brought along the same stages, shows the same. *)
Theorem c96_as_alone e mat_of dot dec earth cos E numneu a0 h a b v l e' mat_of' dot' dec' s0 h' s' i gs s :
  lived_atm e mat_of dot dec earth cos E numneu a0 h a -> crossed e a0 h b v l -> sound_all a l -> nth_error (a_nodes a) i = Some s -> stages tab i l gs ->
  lived_all order m emission tab e' mat_of' dot' dec' s0 h' s' -> passed tab h' (tr_ini (route earth cos i)) b (v i) gs -> alike (world a) (object_of s') ->
  forall ie r f, (ie < length E)%nat -> (r < ob_nr (world a))%nat -> (f < numneu)%nat -> content order dec s ie r f = content order dec' s' ie r f.
Proof.
  intros L C SO Is SG L' P' AL ie r f Hie Hr Hf.
  destruct (frame_is e mat_of dot dec earth cos E numneu a0 h a L) as (FC & _ & F3 & _).
  assert (Hi : (i < length cos)%nat) by (rewrite <- F3; apply nth_error_Some; congruence).
  destruct (shape_at e mat_of dot dec earth cos E numneu a0 h a L i s Is) as (S3 & _ & _ & _ & S5 & S6 & _).
  destruct (held_at e mat_of dot dec earth cos E numneu a0 h a L i s Is) as (FI & _).
  assert (OO : Forall (fun p => (fst p < snd p < ob_n (world a))%nat) order) by (rewrite S5; apply L).
  assert (L3 : (3 <= ob_n (world a))%nat) by (rewrite S5, <- S3; apply FI).
  pose proof (stages_fair e mat_of dot dec earth cos E numneu a0 h a b v l L C i gs Hi SG (SO i gs ltac:(congruence) SG)) as FA.
  destruct (mats_solved e mat_of dot dec earth cos E numneu a0 h a L b v l C i ltac:(congruence)) as (gs1 & S1 & V1). rewrite <- (stages_unique _ _ _ _ SG S1) in V1.
  destruct (c95_reading order m emission tab e' mat_of' dot' dec' s0 h' s' _ b (v i) gs L' P') as (B' & W' & C').
  pose proof AL as (N & NR & NE & NI & SS). cbn in N, NR, NE.
  apply (voyage_alike order m emission _ _ _ _ _ _ AL L3 OO FA) in W'.
  assert (EQ : meq (ob_n (world a)) (mats dec a i ie r) (B' ie r)).
  { apply (voyage_upper order m emission ltac:(apply L) (world a) 0 _ gs _ _ (mats dec a i) B' L3 (ordered_ok _ _ OO) FA V1 W'); [|lia|exact Hr].
    intros e1 r1 H1 R1. rewrite (put_in_alike order (world a) (object_of s') (basis_of b) (v i) (v i) e1 r1 AL OO); [apply meq_refl|lia|exact R1|reflexivity]. }
  rewrite (content_at e mat_of dot dec earth cos E numneu a0 h a L b v l C i s ie r f Is Hie Hr Hf).
  destruct (C' ie r f ltac:(lia) ltac:(lia) ltac:(lia)) as (-> & _). rewrite N.
  assert (SF : flavour order (FullSpec.at_node (object_of s') ie r) f = flavour order (FullSpec.at_node (world a) ie r) f) by (apply same_flavour; [apply SS; (assumption || lia)|exact OO]).
  rewrite SF. apply expect_meq; [apply meq_refl|exact EQ].
Qed.
End Reading.

Print Assumptions c96_nodes.
Print Assumptions c96_reading.
Print Assumptions c96_settled.
Print Assumptions c96_grid.
Print Assumptions c96_nonneg.
Print Assumptions c96_as_alone.
