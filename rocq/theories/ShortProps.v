(** C70: layers of constant density crossed with the shortcut, in matter. *)
From Coq Require Import Reals List Arith Bool Lia Lra.
From Verif Require Import IntModel XsModel StateModel StateProofs StateHistory StateLaws StateReady StateFrames.
From Verif Require Import CMatrix FlavorModel FlavorProofs FlavorProps FlavorEqn FlavorEqnProps AvgProofs SuperProofs PosProofs PosProps TransProofs TransProps EndModel EndProps ShortModel.
From Verif Require FlowProofs.
Import ListNotations.
Local Open Scope R_scope.

(** ** The journey told by the calls *)

(** the last word on the shortcut *)
Fixpoint allowed (h : list entry) : bool :=
  match h with [] => false | (CConst b, _, _, _) :: _ => b | _ :: h => allowed h end.

(** the state set, then legs through constant media with the shortcut allowed *)
Inductive layers : list entry -> R -> StateModel.basis -> (nat -> nat -> nat -> R) -> list leg -> Prop :=
| ly_init c ev s h t b v : is_init c = true -> given c = (b, v) -> last_track h = Some t ->
    layers ((c, Done, ev, s) :: h) (tr_ini t) b v []
| ly_leg ev s h t0 b v ls bd t c1 : layers h t0 b v ls -> last_body h = Some (Some bd) -> b_const bd = true -> allowed h = true ->
    anchor h = Some (t, c1) -> tr_ini t <= tr_fin t ->
    layers ((CEvolve, Done, ev, s) :: h) t0 b v (ls ++ [Leg bd (c1 - tr_ini t) (tr_fin t - tr_ini t)])
| ly_other c r ev s h t0 b v ls : layers h t0 b v ls -> harmless c = true \/ (is_init c = true /\ r = Threw) ->
    layers ((c, r, ev, s) :: h) t0 b v ls.

(** neither sources nor no-oscillation mode were ever asked for; positivity and the shortcut may have been *)
Definition plain (h : list entry) : Prop := forall en, In en h ->
  match fst (fst (fst en)) with CSources true | COsc false => False | _ => True end.

(** ** The switches *)
Section Proof.
Variable e : env.

Lemma plain_switches k s0 h s : made e k s0 -> history e s0 h s -> o_int (q_opts s0) = false -> plain h ->
  o_int (q_opts s) = false /\ o_osc (q_opts s) = true /\ o_src (q_opts s) = false /\ o_const (q_opts s) = allowed h.
Proof.
  intros Mk H OI N. induction H as [|h s c r1 s1 ev1 H IH E U].
  - pose proof (made_spec e k s0 Mk) as X. destruct (nw_opts _ _ _ X) as (i & sc & O). rewrite O in OI |- *. cbn in OI |- *. tauto.
  - assert (Z : o_int (q_opts s) = false /\ o_osc (q_opts s) = true /\ o_src (q_opts s) = false /\ o_const (q_opts s) = allowed h) by (apply IH; intros en X; apply N; right; exact X).
    pose proof (history_agrees e k s0 h s Mk H) as A. pose proof (ag_wf _ _ _ _ A) as W.
    assert (OB : s1 = out_obj (exec e c s)) by (rewrite E; reflexivity).
    assert (AL : allowed ((c, r1, ev1, s1) :: h) = match c with CConst b => b | _ => allowed h end) by (destruct c; reflexivity).
    rewrite AL, OB. clear AL OB.
    destruct (is_evolve c) eqn:V.
    { destruct c; try discriminate V. pose proof (switches_evolve e s) as X. unfold switches in X. injection X as X1 X2 X3 X4 X5 X6 X7 X8.
      destruct Z as (Z1 & Z2 & Z3 & Z4). repeat split; [exact (eq_trans X1 Z1)|exact (eq_trans X2 Z2)|exact (eq_trans X7 Z3)|exact (eq_trans X6 Z4)]. }
    destruct (is_opt c) eqn:O.
    + pose proof (N _ (or_introl eq_refl)) as NC. cbn in NC.
      destruct c; try discriminate O; cbn [exec];
        unfold set_tau, set_gr, set_osc, set_pos, set_const, set_scale, set_basis, set_sources, read, modify, throw;
        repeat match goal with |- context [if ?b then _ else _] => destruct b eqn:? end; cbn; try tauto;
        repeat match goal with x : bool |- _ => destruct x end; tauto.
    + rewrite opts_frame by assumption. destruct c; try exact Z; discriminate O.
Qed.

(** ** The invariant *)
Variable order : list (nat * nat).
Variable m : media.
Variable dec : nat -> nat -> list R -> nat -> nat -> mat.

Lemma mderiv_at n (A : R -> mat) t x D : mderiv n A (x - t) D -> mderiv n (fun x => A (x - t)) x D.
Proof.
  intros M i j Hi Hj. destruct (M i j Hi Hj) as (D1 & D2). split.
  - replace (re (D i j)) with (re (D i j) * (1 - 0)) by ring.
    apply (derivable_pt_lim_comp (fun x => x - t) (fun y => re (A y i j)) x); [|exact D1].
    apply derivable_pt_lim_minus; [apply derivable_pt_lim_id|apply derivable_pt_lim_const].
  - replace (im (D i j)) with (im (D i j) * (1 - 0)) by ring.
    apply (derivable_pt_lim_comp (fun x => x - t) (fun y => im (A y i j)) x); [|exact D2].
    apply derivable_pt_lim_minus; [apply derivable_pt_lim_id|apply derivable_pt_lim_const].
Qed.

Lemma const_full s b off len x ie r : fresh s -> h_osc (q_h0 s) = true -> (3 <= q_numneu s)%nat -> (r < q_nrhos s)%nat ->
  Forall (fun p => (fst p < snd p < q_numneu s)%nat) order -> steady m -> b_const b = true ->
  const_H order m s b ie r = full (leg_world order m (settings_of s ie r) (Leg b off len)) x.
Proof.
  intros F O L Hr OO SY B. unfold const_H, hi, full, pot.
  rewrite !(stored_flavour order s ie r) by (assumption || lia). rewrite (stored_vacuum order m s ie r (Leg b off len) F O).
  cbn [leg_world w_cc w_nc l_body l_shift settings_of st_nt st_r]. rewrite cc_charged, nc_neutral.
  destruct (SY b (q_x s) (x - off) B) as (-> & ->). reflexivity.
Qed.

Definition still (s : nus) (t0 : R) : Prop := sq_t (q_sq s) = t0 \/ o_basis (q_opts s) = StateModel.BMass.

Lemma layers_on k s0 h s t0 b v ls : made e k s0 -> history e s0 h s -> o_int (q_opts s0) = false -> plain h ->
  Forall (fun p => (fst p < snd p < q_numneu s)%nat) order -> exact order m dec e -> exact_const order m dec e -> steady m ->
  layers h t0 b v ls -> on_way order m dec s t0 b v ls /\ still s t0.
Proof.
  intros Mk H OI N OO EX EC SY TV. revert s H N OO.
  induction TV as [c ev s' h t b v I G T|ev s' h t0 b v ls bd t c1 TV IH B CD AL A L|c r ev s' h t0 b v ls TV IH G]; intros s0' H N OO;
    inversion H as [|h' s c' r' s1 ev' H' E U]; subst;
    assert (N' : plain h) by (intros en X; apply N; right; exact X);
    pose proof (history_agrees e k s0 h s Mk H') as AG; pose proof (ag_wf _ _ _ _ AG) as W;
    destruct (plain_switches k s0 h s Mk H' OI N') as (S1 & S2 & S3 & S4).
  - destruct (init_cases e c s W I) as [X|(t1 & s1 & T1 & X & SS & _)]; [rewrite X in E; discriminate E|].
    rewrite X in E. injection E as -> <-.
    assert (t1 = t) as -> by (pose proof (ag_track _ _ _ _ AG) as Y; congruence).
    destruct (init_last e c s s0' [] I X) as (s3 & E3). rewrite G in E3. cbn [fst snd] in E3.
    assert (C3 : q_numneu s3 = q_numneu s0' /\ q_ne s3 = q_ne s0' /\ q_nrhos s3 = q_nrhos s0' /\ q_proj s3 = q_proj s0') by (rewrite E3; repeat split).
    destruct C3 as (C1 & C2 & C3 & C4).
    pose proof (ss_fresh _ _ _ _ SS) as FR. split; [constructor|left; apply SS].
    + exact FR.
    + rewrite (ss_osc _ _ _ _ SS). exact S2.
    + apply SS.
    + rewrite (ss_t _ _ _ _ SS). cbn. ring.
    + intros ie r Hi Hr. exists (matrix dec s0' (sq_state (q_sq s0')) ie r). split.
      * apply way_nil. apply meq_sym. cbn [settings_of st_n].
        assert (Q : sq_state (q_sq s0') = e_mk e s3 v b) by (rewrite E3; reflexivity). rewrite Q.
        unfold matrix. rewrite <- C1, <- C3. eapply meq_trans; [apply (ex_mk _ _ _ _ EX); congruence|].
        unfold ini_state. apply msum_meq. intros j J. apply mscale_meq. destruct (basis_of b); try apply meq_refl.
        assert (stored_P order s3 r j = stored_P order s0' r j) as -> by (unfold stored_P; rewrite C1, C4; reflexivity).
        rewrite (stored_flavour order s0' ie r j FR) by (try assumption; congruence). apply meq_refl.
      * apply back_zero. rewrite (ss_t _ _ _ _ SS). ring.
  - pose proof (ag_anchor _ _ _ _ AG) as AN. rewrite A in AN. destruct AN as (LT & OF).
    pose proof (ag_track _ _ _ _ AG) as QT. rewrite LT in QT. pose proof (ag_body _ _ _ _ AG) as QB. rewrite B in QB.
    pose proof E as E0. cbn [exec] in E. rewrite (evolve_state_eq e bd t s QB QT) in E.
    destruct (has_all s) eqn:HA; [|discriminate E]. rewrite seq_eq, prep_simple in E by congruence.
    unfold rlt in E. destruct (Rlt_dec (tr_fin t) (tr_ini t)) as [X|_]; [lra|].
    unfold tail_, shortcut in E. rewrite S1, S4, AL, CD in E. cbn [andb negb] in E. rewrite evolve_const_eq in E.
    set (sa := put_o_basis StateModel.BMass (put_sq_num false (put_o_full true s))) in E. set (len := tr_fin t - tr_ini t) in *.
    rewrite seq_eq in E. destruct (StateModel.evolve e len sa) as [[r2 s2] e2] eqn:E2. destruct r2; try discriminate E.
    unfold modify in E. injection E as <- _.
    destruct (evolve_done e _ _ _ _ E2) as (BX & KS & QX). specialize (KS eq_refl). specialize (QX _ OF ltac:(discriminate)).
    pose proof (evolve_clock e _ _ _ _ E2) as CK. change (sq_t (q_sq sa)) with (sq_t (q_sq s)) in CK, QX. change (sq_state (q_sq sa)) with (sq_state (q_sq s)) in KS.
    assert (V : q_opts s2 = q_opts sa /\ sq_t0 (q_sq s2) = sq_t0 (q_sq s) /\ core s2 = core s /\ q_body s2 = Some bd).
    { change (q_opts s2) with (q_opts (but_x s2)). change (sq_t0 (q_sq s2)) with (sq_t0 (q_sq (but_x s2))). change (core s2) with (core (but_x s2)).
      change (q_body s2) with (q_body (but_x s2)). rewrite BX. repeat split. exact QB. }
    destruct V as (OB & T0' & C & QB2).
    pose proof C as C'. unfold core in C'. injection C' as C1 C2 C3 C4 C5 C6 C7 C8 C9 C10 C11.
    change (q_numneu (put_sq_state (e_const e s2 len) s2)) with (q_numneu s2) in OO.
    assert (OO2 := OO). rewrite C2 in OO. destruct (IH s H' N' OO) as ([F O T0 T WY] & ST).
    set (l := Leg bd (c1 - tr_ini t) len).
    assert (TL : total (ls ++ [l]) = total ls + len).
    { clear. induction ls as [|a ls IH]; cbn [app total fold_right] in *; [unfold l; cbn; ring|]. unfold total in IH. rewrite IH. ring. }
    pose proof (fresh_core _ _ C F) as F2. assert (O2 : h_osc (q_h0 s2) = true) by (rewrite C8; exact O).
    split; [|right; cbn; rewrite OB; reflexivity]. constructor.
    + exact F2.
    + exact O2.
    + cbn. rewrite T0'. exact T0.
    + cbn. rewrite CK, T, TL. ring.
    + intros ie r Hi Hr. cbn in Hi, Hr.
      change (settings_of (put_sq_state (e_const e s2 len) s2) ie r) with (settings_of s2 ie r).
      change (q_numneu (put_sq_state (e_const e s2 len) s2)) with (q_numneu s2).
      assert (SO : settings_of s2 ie r = settings_of s ie r) by (unfold settings_of; rewrite C1, C2, C5, C6; reflexivity).
      destruct (WY ie r) as (Bm & WB & EB); [congruence|congruence|].
      destruct (EC s2 len bd QB2 ie r Hi Hr) as (Sol & D & I0 & I1).
      exists (Sol (sq_t (q_sq s) + l_len l - sq_t (q_sq s))). split.
      * rewrite SO. apply way_snoc with (T := sq_t (q_sq s)) (B := Bm) (sol := fun x => Sol (x - sq_t (q_sq s))).
        -- rewrite C2. exact WB.
        -- exact T.
        -- unfold l, len. cbn [l_len]. lra.
        -- rewrite Rminus_diag_eq by reflexivity. cbn [settings_of st_n]. rewrite <- C2. eapply meq_trans; [exact I0|]. rewrite KS. unfold matrix. rewrite C2, C4.
           eapply meq_trans; [|exact EB]. apply meq_sym. destruct ST as [ST|ST]; [apply back_zero; rewrite ST; ring|rewrite ST; apply meq_refl].
        -- intros x Hx. apply mderiv_at. cbn [settings_of st_n]. rewrite <- C2. rewrite <- SO. unfold l. rewrite <- (const_full s2 bd (c1 - tr_ini t) len x ie r) by (try assumption; rewrite C2; apply (wf_min _ _ W)). apply D.
      * cbn [put_sq_state set_q_sq q_opts q_sq sq_state]. rewrite OB. cbn [sa put_o_basis set_q_opts set_o_basis o_basis q_opts basis_of back].
        replace (sq_t (q_sq s) + l_len l - sq_t (q_sq s)) with len by (unfold l; cbn; ring). exact I1.
  - assert (OB : s0' = out_obj (exec e c s)) by (rewrite E; reflexivity).
    destruct G as [G|(I & ->)].
    2:{ destruct (init_cases e c s W I) as [X|(t1 & s1 & _ & X & _)]; rewrite X in E; [|discriminate E]. injection E as <- _. apply IH; assumption. }
    assert (I : is_init c = false) by (destruct c; try reflexivity; discriminate G).
    assert (P : is_param c = false) by (destruct c; try reflexivity; discriminate G).
    assert (V : is_evolve c = false) by (destruct c; try reflexivity; discriminate G).
    assert (C : core s0' = core s).
    { pose proof (core_exec e c I P s) as K. rewrite E in K. exact K. }
    assert (Q : q_sq s0' = q_sq s) by (rewrite OB; apply sq_frame; assumption).
    assert (BB : o_basis (q_opts s0') = o_basis (q_opts s)).
    { rewrite OB. destruct (is_opt c) eqn:OP; [|rewrite opts_frame by assumption; reflexivity].
      destruct c; try discriminate OP; try discriminate G; cbn [exec];
        unfold set_tau, set_gr, set_osc, set_pos, set_const, set_scale, set_sources, read, modify, throw;
        repeat match goal with |- context [if ?b then _ else _] => destruct b end; reflexivity. }
    unfold core in C. pose proof C as C'. injection C' as _ C2 _ _ _ _ _ _ _ _ _.
    destruct (IH s H' N') as (X & Y); [rewrite <- C2; exact OO|]. split; [exact (on_way_frame order m dec s s0' t0 b v ls C Q BB X)|].
    unfold still. rewrite Q, BB. exact Y.
Qed.
End Proof.

(** ** C70 *)

(** all that is supposed: made without interactions, neither sources nor no-oscillation mode, [s] reached; SQuIDS does its part *)
Definition crossed (e : env) (order : list (nat * nat)) (m : media) (dec : nat -> nat -> list R -> nat -> nat -> mat)
    (s0 : nus) (h : list entry) (s : nus) : Prop :=
  (exists k, made e k s0) /\ history e s0 h s /\ o_int (q_opts s0) = false /\ plain h /\
  exact order m dec e /\ exact_const order m dec e /\ steady m /\ Forall (fun p => (fst p < snd p < q_numneu s)%nat) order.

Lemma crossed_min e order m dec s0 h s : crossed e order m dec s0 h s -> (3 <= q_numneu s)%nat.
Proof. intros ((k & Mk) & H & _). exact (wf_min _ _ (ag_wf _ _ _ _ (history_agrees e k s0 h s Mk H))). Qed.
Lemma crossed_read e order m dec s0 h s t0 b v ls ie : crossed e order m dec s0 h s -> layers h t0 b v ls ->
  on_way order m dec s t0 b v ls /\ read_H s ie = stored_H s ie.
Proof.
  intros ((k & Mk) & H & OI & N & EX & EC & SY & OO) TV. destruct (layers_on e order m dec k s0 h s t0 b v ls Mk H OI N OO EX EC SY TV) as (X & _).
  split; [exact X|]. destruct X as [(_ & _ & F) O _ _ _]. destruct (plain_switches e k s0 h s Mk H OI N) as (_ & S & _).
  unfold read_H, stored_H. rewrite O, S, F. reflexivity.
Qed.

(** Whatever was done to the object before: after a state is set and taken through any constant layers with the
    shortcut, also of matter, the contents are those of the equation for the whole path. *)
Theorem c70_matter_layers e order m dec s0 h s t0 b v ls ie r f : crossed e order m dec s0 h s -> layers h t0 b v ls ->
  (ie < q_ne s)%nat -> (r < q_nrhos s)%nat -> (f < q_numneu s)%nat ->
  answer order m (settings_of s ie r) t0 (basis_of b) (v ie r) ls f (content order dec s ie r f) /\
  mass_answer order m (settings_of s ie r) t0 (basis_of b) (v ie r) ls f (mass_content dec s ie r f).
Proof.
  intros L TV Hi Hr Hf. destruct (crossed_read _ _ _ _ _ _ _ _ _ _ _ ie L TV) as ([F O T0 T W] & RH).
  destruct (W ie r Hi Hr) as (B & WB & EB). assert (OO : Forall (fun p => (fst p < snd p < q_numneu s)%nat) order) by apply L.
  split; exists B; (split; [exact WB|]).
  - unfold content. rewrite RH, T0.
    pose proof (read_back (q_numneu s) (basis_of (o_basis (q_opts s))) (stored_H s ie) (sq_t (q_sq s)) t0 (matrix dec s (sq_state (q_sq s)) ie r) (stored_P order s r f)) as X.
    rewrite (stored_flavour order s ie r f F Hr Hf OO) in X.
    replace (eval_flavor _ _ _ _ _ _ _ f) with (expect (q_numneu s) (flavour order (settings_of s ie r) f) (back (basis_of (o_basis (q_opts s))) (stored_H s ie) (sq_t (q_sq s) - t0) (matrix dec s (sq_state (q_sq s)) ie r))).
    + apply expect_meq; [apply meq_refl|exact EB].
    + rewrite <- X. unfold eval_flavor. rewrite (stored_flavour order s ie r f F Hr Hf OO). destruct (basis_of (o_basis (q_opts s))); reflexivity.
  - unfold mass_content. rewrite RH, T0.
    pose proof (read_back (q_numneu s) (basis_of (o_basis (q_opts s))) (stored_H s ie) (sq_t (q_sq s)) t0 (matrix dec s (sq_state (q_sq s)) ie r) (b0_proj f)) as X.
    replace (eval_mass _ _ _ _ _ _ f) with (expect (q_numneu s) (b0_proj f) (back (basis_of (o_basis (q_opts s))) (stored_H s ie) (sq_t (q_sq s) - t0) (matrix dec s (sq_state (q_sq s)) ie r))).
    + apply expect_meq; [apply meq_refl|exact EB].
    + rewrite <- X. unfold eval_mass. destruct (basis_of (o_basis (q_opts s))); reflexivity.
Qed.

(** The shortcut shows what the integrator shows: one object takes all the layers with the shortcut, the other integrates
    them, in whatever basis. *)
Theorem c70_shortcut_as_integrated e e' order m dec dec' s0 s0' h h' s s' t0 b v v' ls ie ie' r r' f :
  lived e order m dec s0 h s -> crossed e' order m dec' s0' h' s' -> travelled h t0 b v ls -> layers h' t0 b v' ls ->
  (ie < q_ne s)%nat -> (r < q_nrhos s)%nat -> (ie' < q_ne s')%nat -> (r' < q_nrhos s')%nat -> (f < q_numneu s)%nat ->
  same_settings (settings_of s ie r) (settings_of s' ie' r') -> (forall j, (j < q_numneu s)%nat -> v' ie' r' j = v ie r j) ->
  content order dec' s' ie' r' f = content order dec s ie r f /\ mass_content dec' s' ie' r' f = mass_content dec s ie r f.
Proof.
  intros L L' T T' Hi Hr Hi' Hr' Hf SS V. assert (Hf' : (f < q_numneu s')%nat) by (destruct SS as (N & _); cbn in N; lia).
  assert (OO : Forall (fun p => (fst p < snd p < q_numneu s)%nat) order) by apply L.
  destruct (answer_unique order m (settings_of s ie r) (settings_of s' ie' r') t0 (basis_of b) (v ie r) (v' ie' r') ls f
    (content order dec s ie r f) (content order dec' s' ie' r' f) (lived_min _ _ _ _ _ _ _ L) OO SS V) as (X & _).
  destruct (answer_unique order m (settings_of s ie r) (settings_of s' ie' r') t0 (basis_of b) (v ie r) (v' ie' r') ls f
    (mass_content dec s ie r f) (mass_content dec' s' ie' r' f) (lived_min _ _ _ _ _ _ _ L) OO SS V) as (_ & Y).
  split; [apply X|apply Y]; try (eapply c94_reading; eassumption); try (eapply c94_mass_reading; eassumption);
    apply (c70_matter_layers e' order m dec' s0' h' s' t0 b v' ls ie' r' f L' T' Hi' Hr' Hf').
Qed.

(** Two objects that cross the same layers with the shortcut, one dividing a layer in two, show the same. *)
Theorem c70_divided e e' order m dec dec' s0 s0' h h' s s' t0 b v v' ls1 ls2 bd sh x y ie ie' r r' f :
  crossed e order m dec s0 h s -> crossed e' order m dec' s0' h' s' -> 0 <= x -> 0 <= y ->
  layers h t0 b v (ls1 ++ Leg bd sh (x + y) :: ls2) -> layers h' t0 b v' (ls1 ++ Leg bd sh x :: Leg bd sh y :: ls2) ->
  (ie < q_ne s)%nat -> (r < q_nrhos s)%nat -> (ie' < q_ne s')%nat -> (r' < q_nrhos s')%nat -> (f < q_numneu s)%nat ->
  same_settings (settings_of s ie r) (settings_of s' ie' r') -> (forall j, (j < q_numneu s)%nat -> v' ie' r' j = v ie r j) ->
  content order dec' s' ie' r' f = content order dec s ie r f.
Proof.
  intros L L' X Y T T' Hi Hr Hi' Hr' Hf SS V. assert (Hf' : (f < q_numneu s')%nat) by (destruct SS as (N & _); cbn in N; lia).
  assert (OO : Forall (fun p => (fst p < snd p < q_numneu s)%nat) order) by apply L.
  refine (proj1 (answer_unique order m (settings_of s ie r) (settings_of s' ie' r') t0 (basis_of b) (v ie r) (v' ie' r') _ f
    _ _ (crossed_min _ _ _ _ _ _ _ L) OO SS V) _ (proj1 (c70_matter_layers e' order m dec' s0' h' s' t0 b v' _ ie' r' f L' T' Hi' Hr' Hf'))).
  destruct (proj1 (c70_matter_layers e order m dec s0 h s t0 b v _ ie r f L T Hi Hr Hf)) as (B & W & E). exists B. split; [|exact E].
  apply way_split; assumption.
Qed.

(** The contents add up to what was put in, none is negative, through all layers. *)
Theorem c70_layers_total e order m dec s0 h s t0 b v ls ie r : crossed e order m dec s0 h s -> layers h t0 b v ls ->
  (ie < q_ne s)%nat -> (r < q_nrhos s)%nat -> rsum (q_numneu s) (content order dec s ie r) = rsum (q_numneu s) (v ie r) /\
  ((forall j, (j < q_numneu s)%nat -> 0 <= v ie r j) -> forall f, (f < q_numneu s)%nat -> 0 <= content order dec s ie r f).
Proof.
  intros L T Hi Hr. assert (OO : Forall (fun p => (fst p < snd p < q_numneu s)%nat) order) by apply L. pose proof (ordered_ok _ _ OO) as PO.
  pose proof (crossed_min _ _ _ _ _ _ _ L) as L3. set (q := settings_of s ie r).
  assert (RD := fun f Hf => proj1 (c70_matter_layers e order m dec s0 h s t0 b v ls ie r f L T Hi Hr Hf)). split.
  - destruct (RD 0%nat) as (B & W & _); [lia|].
    rewrite (rsum_ext _ _ (fun f => expect (st_n q) (flavour order q f) B)).
    + change (q_numneu s) with (st_n q). rewrite (frame_total (st_n q) (mixing (st_n q) (st_th q) (fixed_phases (type_of (st_nt q)) (st_r q) (st_dl q)) order) (flavour order q) B).
      * exact (eq_trans (way_trace order m _ _ _ _ _ W) (ini_trace order q (basis_of b) (v ie r) PO)).
      * apply mixing_unitary, PO.
      * apply frame_b1.
    + intros f Hf. refine (proj1 (answer_unique order m q q t0 (basis_of b) (v ie r) (v ie r) ls f _ _ L3 OO _ (fun _ _ => eq_refl)) _ (RD f Hf)).
      * repeat split.
      * exists B. split; [exact W|reflexivity].
  - intros V0 f Hf. destruct (RD f Hf) as (B & W & ->). apply psd_content.
    + apply (frame_projector _ _ (flavour order (settings_of s ie r)) f (mixing_unitary _ _ _ _ PO) (frame_b1 _ _ _ _ _ _) Hf).
    + apply (way_psd order m (settings_of s ie r) _ _ _ _ L3 PO W). exact (ini_psd order (settings_of s ie r) (basis_of b) (v ie r) PO V0).
Qed.

(** *** The equation has a solution through constant layers *)
Lemma way_exists order m q ls : steady m -> Forall (fun l => b_const (l_body l) = true /\ 0 <= l_len l) ls ->
  forall t A, exists B, way order m q t ls A B.
Proof.
  intros SY F. induction F as [|l ls (C & L) F IH]; intros t A.
  - exists A. apply way_nil, meq_refl.
  - set (H := full (leg_world order m q l) t). set (sol := fun x => FlowProofs.cflow (st_n q) H A (x - t)).
    destruct (IH (t + l_len l) (sol (t + l_len l))) as (B & W). exists B. apply way_leg with (sol := sol); try assumption.
    + unfold sol. rewrite Rminus_diag_eq by reflexivity. apply FlowProofs.cflow_0.
    + intros x _. replace (full (leg_world order m q l) x) with H.
      * unfold sol. apply (mderiv_at (st_n q) (FlowProofs.cflow (st_n q) H A) t x). apply FlowProofs.cflow_solves.
      * unfold H, full. cbn [leg_world w_cc w_nc].
        destruct (SY (l_body l) (t - l_shift l) (x - l_shift l) C) as (-> & ->). reflexivity.
Qed.

(** So what the theorems above speak of exists and is one number. *)
Theorem c70_answer_exists order m q t0 b v ls f : steady m -> (3 <= st_n q)%nat -> Forall (fun p => (fst p < snd p < st_n q)%nat) order ->
  Forall (fun l => b_const (l_body l) = true /\ 0 <= l_len l) ls -> exists! p, answer order m q t0 b v ls f p.
Proof.
  intros SY L3 OO F. destruct (way_exists order m q ls SY F t0 (ini_state (st_n q) b (flavour order q) v)) as (B & W).
  exists (expect (st_n q) (flavour order q f) B). split; [exists B; split; [exact W|reflexivity]|].
  intros p P. symmetry. refine (proj1 (answer_unique order m q q t0 b v v ls f _ _ L3 OO _ (fun _ _ => eq_refl)) _ P); [repeat split|].
  exists B. split; [exact W|reflexivity].
Qed.

(** ** A case: rocks

    The density of a body is its name; every leg is solved by the exponential series. *)
Definition rocks : media := Media (MkConsts 1 1 1 1 1 1) (fun b _ => INR (b_name b)) (fun _ _ => 1 / 2).
Definition rock_sol (s : nus) (b : body) (ie r : nat) (x : R) : mat :=
  let t := sq_t (q_sq s) in
  let to_mass := back (basis_of (o_basis (q_opts s))) (stored_H s ie) (t - sq_t0 (q_sq s)) in
  let sol := FlowProofs.cflow (q_numneu s) (const_H order3 rocks s b ie r) (to_mass (matrix dec1 s (sq_state (q_sq s)) ie r)) (x - t) in
  match basis_of (o_basis (q_opts s)) with BMass => sol | _ => evolve (stored_H s ie) (x - sq_t0 (q_sq s)) sol end.
Definition rock_env : env :=
  Env (fun s dt => ([sq_t (q_sq s) + dt], true, 0, enc (q_numneu s) (q_nrhos s) (q_ne s) (fun ie r =>
          match q_body s with None => mzero | Some b => rock_sol s b ie r (sq_t (q_sq s) + dt) end)))
      (fun h => h) (fun n => n)
      (fun s v b => enc (q_numneu s) (q_nrhos s) (q_ne s) (fun ie r => ini_state (q_numneu s) (basis_of b) (stored_P order3 s r) (v ie r)))
      (fun s => sq_state (q_sq s))
      (fun s len => enc (q_numneu s) (q_nrhos s) (q_ne s) (fun ie r =>
          match q_body s with None => mzero
          | Some b => FlowProofs.cflow (q_numneu s) (const_H order3 rocks s b ie r) (matrix dec1 s (sq_state (q_sq s)) ie r) len end))
      None (fun _ => true) 6 1 1.

Lemma rocks_steady : steady rocks.
Proof. intros b p p' _. split; reflexivity. Qed.
Lemma rock_const : exact_const order3 rocks dec1 rock_env.
Proof.
  intros s len b B ie r Hi Hr. exists (FlowProofs.cflow (q_numneu s) (const_H order3 rocks s b ie r) (matrix dec1 s (sq_state (q_sq s)) ie r)).
  split; [intro x; apply FlowProofs.cflow_solves|]. split; [apply FlowProofs.cflow_0|].
  unfold rock_env. cbn [e_const]. unfold matrix at 1. rewrite B. exact (dec_enc _ _ _ _ ie r Hi Hr).
Qed.
Lemma rock_exact : exact order3 rocks dec1 rock_env.
Proof.
  constructor.
  - intros s v b ie r Hi Hr. unfold rock_env. cbn [e_mk]. unfold matrix. exact (dec_enc _ _ _ _ ie r Hi Hr).
  - intros s dt ts t' st b off SV D B O OS HO OI SR ie r Hi Hr. unfold rock_env in SV. cbn [e_solve] in SV. injection SV as _ _ <-.
    exists (rock_sol s b ie r). split; [|split].
    + intros x _. unfold slope. eapply FlavorEqn.mderiv_meq; [apply meq_sym, rhs_zero|].
      set (n := q_numneu s). set (H := const_H order3 rocks s b ie r). set (t0 := sq_t0 (q_sq s)).
      set (A0 := back (basis_of (o_basis (q_opts s))) (stored_H s ie) (sq_t (q_sq s) - t0) (matrix dec1 s (sq_state (q_sq s)) ie r)).
      set (sol := fun x => FlowProofs.cflow n H A0 (x - sq_t (q_sq s))).
      assert (DS : mderiv n sol x (coherent n H (sol x))) by (apply (mderiv_at n (FlowProofs.cflow n H A0)); apply FlowProofs.cflow_solves).
      assert (DI : mderiv n (fun x => evolve (stored_H s ie) (x - t0) (sol x)) x
         (coherent n (evolve (stored_H s ie) (x - t0) (pot (cc_at rocks (q_nt s) r b (x - off)) (nc_at rocks (q_nt s) r b (x - off)) (stored_P order3 s r)))
            (evolve (stored_H s ie) (x - t0) (sol x)))).
      { eapply FlavorEqn.mderiv_meq; [|apply (change_of_basis n (stored_H s ie) (pot (cc_at rocks (q_nt s) r b (x - off)) (nc_at rocks (q_nt s) r b (x - off)) (stored_P order3 s r)) mzero mzero sol t0 x (h0_diag_real _ _ _ _))].
        - eapply meq_trans; [apply rhs_meq; [apply meq_refl|apply evolve_zero|apply evolve_zero|apply meq_refl]|apply rhs_zero].
        - eapply FlavorEqn.mderiv_meq; [apply meq_sym, rhs_zero|exact DS]. }
      unfold rock_sol, used_P, hi. destruct (basis_of (o_basis (q_opts s))); [|exact DS|];
        (eapply FlavorEqn.mderiv_meq; [|exact DI]); unfold evolved; apply coherent_meq; try apply meq_refl; apply evolve_pot.
    + unfold rock_sol. rewrite (Rminus_diag_eq (sq_t (q_sq s)) _ eq_refl). set (A := matrix dec1 s (sq_state (q_sq s)) ie r).
      destruct (basis_of (o_basis (q_opts s))); cbn [back]; [|apply FlowProofs.cflow_0|];
        (eapply meq_trans; [apply evolve_meq, FlowProofs.cflow_0|]; eapply meq_trans; [apply evolve_evolve|];
         set (d := sq_t (q_sq s) - sq_t0 (q_sq s)); replace (d + - d) with (- 0) by ring; apply (back_zero _ BInter _ 0 A eq_refl)).
    + unfold matrix. rewrite B. exact (dec_enc _ _ _ _ ie r Hi Hr).
Qed.

(** two rocks one after the other, [c]: with the shortcut *)
Definition rock (k : nat) : body := Body k true.
Definition two_rocks (c : bool) : list call :=
  [CEvolve; CTrack (Some (Track 2 5)); CBody (Some (rock 5)); CEvolve; CInit3 2 2 3 fluxes StateModel.BFlavor;
   CTrack (Some (Track 0 2)); CBody (Some (rock 3)); CConst c].
Definition two_legs : list leg := [Leg (rock 3) 0 2; Leg (rock 5) 0 3].
Lemma two_rocks_life c : exists s0 h s, crossed rock_env order3 rocks dec1 s0 h s /\ map (fun en => fst (fst (fst en))) h = two_rocks c /\
  travelled h 0 StateModel.BFlavor fluxes two_legs /\ (c = true -> layers h 0 StateModel.BFlavor fluxes two_legs) /\
  (c = false -> lived rock_env order3 rocks dec1 s0 h s) /\
  q_numneu s = 3%nat /\ q_ne s = 2%nat /\ q_nrhos s = 2%nat /\ (forall ie r, settings_of s ie r = settings_of s0 ie r) /\
  make_multi rock_env [1; 2] 3 IntModel.Both false None = (Done, s0, []).
Proof.
  destruct (make_multi_ok rock_env [1; 2] 3 IntModel.Both false None) as (s0 & M0 & R0); [lia|cbn; lia|discriminate|].
  cbn [nt_eqb length] in R0. unfold rest in R0. injection R0 as A1 A2 A3 A4 A5 A6 A7 A8 A9 A10 A11 A12 A13 A14 A15 A16.
  pose proof (made_multi rock_env [1; 2] 3 IntModel.Both false None s0 [] M0) as Mk.
  set (s1 := put_o_const c s0). set (s2 := put_f_body true (set_q_body (Some (rock 3)) s1)).
  set (s3 := put_f_track true (set_q_track (Some (Track 0 2)) (set_q_x 0 (set_q_offset (Some (sq_t (q_sq s2) - 0)) s2)))).
  assert (E1 : exec rock_env (CConst c) s0 = (Done, s1, [])) by reflexivity.
  assert (E2 : exec rock_env (CBody (Some (rock 3))) s1 = (Done, s2, [])) by reflexivity.
  assert (E3 : exec rock_env (CTrack (Some (Track 0 2))) s2 = (Done, s3, [])) by reflexivity.
  destruct (init3_ok rock_env s3 (Track 0 2) fluxes 2 3 A1 A3 A4 A2) as (s4 & E4 & S4); [lia|lia|cbn; lia|reflexivity|reflexivity|exact A15|reflexivity|].
  destruct (able_evolve rock_env (rock 3) (Track 0 2) 0 s4 (fun _ _ => eq_refl)) as (s5 & e5 & E5 & B5 & T5 & _).
  { constructor; rewrite ?(ss_body _ _ _ _ S4), ?(ss_track _ _ _ _ S4), ?(ss_offset _ _ _ _ S4), ?(ss_opts _ _ _ _ S4); try reflexivity.
    - unfold has_all. rewrite (ss_flags _ _ _ _ S4). cbn. rewrite ?A15, ?A16. reflexivity.
    - cbn. rewrite A7. reflexivity.
    - cbn. rewrite A7. reflexivity.
    - right. cbn. rewrite A7. reflexivity. }
  pose proof (core_exec rock_env CEvolve eq_refl eq_refl s4) as K. rewrite E5 in K. unfold core_keeps, keeps, core in K. cbn in K.
  injection K as K1 K2 K3 K4 K5 K6 K7 K8 K9 K10 K11.
  set (s6 := put_f_body true (set_q_body (Some (rock 5)) s5)).
  set (s7 := put_f_track true (set_q_track (Some (Track 2 5)) (set_q_x 2 (set_q_offset (Some (sq_t (q_sq s6) - 2)) s6)))).
  assert (E6 : exec rock_env (CBody (Some (rock 5))) s5 = (Done, s6, [])) by reflexivity.
  assert (E7 : exec rock_env (CTrack (Some (Track 2 5))) s6 = (Done, s7, [])) by reflexivity.
  pose proof (switches_evolve rock_env s4) as SW. rewrite E5 in SW. cbn [out_obj fst snd] in SW. unfold switches in SW.
  injection SW as W1 W2 W3 W4 W5 W6 W7 W8. rewrite (ss_opts _ _ _ _ S4) in *. cbn in W1, W2, W3, W4, W5, W6, W7, W8. rewrite A7 in W1, W2, W3, W4, W5, W7, W8. cbn in W1, W2, W3, W4, W5, W7, W8.
  assert (T4 : sq_t (q_sq s4) = 0) by (rewrite (ss_t _ _ _ _ S4); reflexivity).
  assert (T5' : sq_t (q_sq s5) = 2) by (rewrite T5, T4; cbn; ring).
  destruct (able_evolve rock_env (rock 5) (Track 2 5) (sq_t (q_sq s6) - 2) s7 (fun _ _ => eq_refl)) as (s8 & e8 & E8 & _).
  { constructor; try reflexivity.
    - pose proof (ab_all _ _ _ _ B5) as X. unfold has_all in X |- *. cbn. apply andb_true_iff in X. destruct X as (X & ->). apply andb_true_iff in X. destruct X as (_ & ->). reflexivity.
    - exact W1.
    - exact W7.
    - right. exact W5. }
  pose proof (core_exec rock_env CEvolve eq_refl eq_refl s7) as J. rewrite E8 in J. unfold core_keeps, keeps, core in J. cbn in J.
  injection J as J1 J2 J3 J4 J5 J6 _ _ _ _ _.
  set (h8 := [(CEvolve, Done, e8, s8); (CTrack (Some (Track 2 5)), Done, @nil event, s7); (CBody (Some (rock 5)), Done, [], s6); (CEvolve, Done, e5, s5);
    (CInit3 2 2 3 fluxes StateModel.BFlavor, Done, [], s4); (CTrack (Some (Track 0 2)), Done, [], s3); (CBody (Some (rock 3)), Done, [], s2); (CConst c, Done, [], s1)]).
  assert (H8 : history rock_env s0 h8 s8).
  { unfold h8. repeat (eapply h_call; [|eassumption|discriminate]). apply h_nil. }
  assert (LG : two_legs = ([] ++ [Leg (rock 3) (sq_t (q_sq s4) - tr_ini (Track 0 2)) (tr_fin (Track 0 2) - tr_ini (Track 0 2))]) ++
    [Leg (rock 5) (sq_t (q_sq s7) - tr_ini (Track 2 5)) (tr_fin (Track 2 5) - tr_ini (Track 2 5))]).
  { rewrite T4. change (sq_t (q_sq s7)) with (sq_t (q_sq s5)). rewrite T5'. cbn. unfold two_legs. repeat f_equal; ring. }
  assert (N2 : q_numneu s8 = 3%nat) by (rewrite J2, K2, (ss_numneu _ _ _ _ S4); exact A2).
  assert (OO : Forall (fun p => (fst p < snd p < q_numneu s8)%nat) order3) by (rewrite N2; repeat (apply Forall_cons; [cbn; lia|]); apply Forall_nil).
  exists s0, h8, s8. repeat apply conj.
  - exists true. exact Mk.
  - exact H8.
  - rewrite A7. reflexivity.
  - intros en I. cbn in I. repeat destruct I as [<-|I]; try exact Logic.I. contradiction.
  - exact rock_exact.
  - exact rock_const.
  - exact rocks_steady.
  - exact OO.
  - reflexivity.
  - rewrite LG. apply tv_evolve; try reflexivity; [|cbn; lra]. apply tv_other; [|left; reflexivity]. apply tv_other; [|left; reflexivity].
    apply tv_evolve; try reflexivity; [|cbn; lra]. refine (tv_init _ _ _ _ (Track 0 2) _ _ _ _ _); reflexivity.
  - intros ->. rewrite LG. apply ly_leg; try reflexivity; [|cbn; lra]. apply ly_other; [|left; reflexivity]. apply ly_other; [|left; reflexivity].
    apply ly_leg; try reflexivity; [|cbn; lra]. refine (ly_init _ _ _ _ (Track 0 2) _ _ _ _ _); reflexivity.
  - intros ->. split; [exists true; exact Mk|]. split; [exact H8|]. split; [rewrite A7; reflexivity|]. split.
    + intros en I. cbn in I. repeat destruct I as [<-|I]; try exact Logic.I. contradiction.
    + split; [reflexivity|]. split; [exact rock_exact|exact OO].
  - exact N2.
  - rewrite J3, K3, (ss_ne _ _ _ _ S4). exact A3.
  - rewrite J4, K4, (ss_nrhos _ _ _ _ S4). exact A4.
  - intros ie r. unfold settings_of. rewrite J1, J2, J5, J6, K1, K2, K5, K6, (ss_nt _ _ _ _ S4), (ss_numneu _ _ _ _ S4), (ss_E _ _ _ _ S4), (ss_angle _ _ _ _ S4), (ss_dm _ _ _ _ S4).
    replace (p_phase (q_pars s4)) with (p_phase (q_pars s0)); [reflexivity|].
    apply FunctionalExtensionality.functional_extensionality. intro i. apply FunctionalExtensionality.functional_extensionality. intro j.
    rewrite (ss_phase _ _ _ _ S4). reflexivity.
  - exact M0.
Qed.

(** Two rocks crossed with and without the shortcut: the same is read. *)
Example c70_two_rocks : exists s0 h h' s s', lived rock_env order3 rocks dec1 s0 h s /\ crossed rock_env order3 rocks dec1 s0 h' s' /\
  travelled h 0 StateModel.BFlavor fluxes two_legs /\ layers h' 0 StateModel.BFlavor fluxes two_legs /\
  m_rho rocks (rock 3) 0 <> 0 /\ m_rho rocks (rock 5) 0 <> m_rho rocks (rock 3) 0 /\
  forall ie r f, (ie < 2)%nat -> (r < 2)%nat -> (f < 3)%nat -> content order3 dec1 s' ie r f = content order3 dec1 s ie r f.
Proof.
  destruct (two_rocks_life false) as (s0 & h & s & _ & _ & T & _ & L & N & NE & NR & SE & M). specialize (L eq_refl).
  destruct (two_rocks_life true) as (s0' & h' & s' & C & _ & _ & Y & _ & N' & NE' & NR' & SE' & M'). specialize (Y eq_refl).
  assert (s0' = s0) as -> by congruence. exists s0, h, h', s, s'. repeat (split; [assumption|]).
  split; [cbn; lra|]. split; [cbn; lra|]. intros ie r f Hi Hr Hf.
  apply (c70_shortcut_as_integrated rock_env rock_env order3 rocks dec1 dec1 s0 s0 h h' s s' 0 StateModel.BFlavor fluxes fluxes two_legs ie ie r r f L C T Y); try lia.
  - rewrite SE, SE'. repeat split.
  - reflexivity.
Qed.

Print Assumptions c70_matter_layers.
Print Assumptions c70_shortcut_as_integrated.
Print Assumptions c70_divided.
Print Assumptions c70_layers_total.
Print Assumptions c70_answer_exists.
Print Assumptions c70_two_rocks.
