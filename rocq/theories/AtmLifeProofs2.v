(** All nodes of an ensemble of any history follow the equation of FullSpec. *)
From Coq Require Import Reals List Arith Bool Lia Lra FunctionalExtensionality.
From Verif Require Import XsProofs IntModel XsModel StateModel StateProofs StateHistory StateLaws StateReady StateFrames AtmModel AtmProofs.
From Verif Require Import CMatrix FlavorModel FlavorProofs FlavorEqn AvgProofs SuperModel TransProofs TransProps EndModel EndProps FullModel FullSpec FullProofs.
From Verif Require Import AtmLifeModel AtmLifeSpec AtmLifeProofs.
From Verif Require AtmProps.
Import ListNotations.
Local Open Scope R_scope.

Section Life.
Variable e : env.
Variable order : list (nat * nat).
Variable m : media.
Variable emission : body -> R -> nat -> nat -> nat -> R.
Variable tab : tabs -> list R -> nt -> itables.
Variable mat_of : nat -> vec -> mat.
Variable dot : nat -> vec -> vec -> R.
Variable dec : nat -> nat -> list R -> nat -> nat -> mat.
Variable track_of : R -> track.
Variable grow : nat -> bool.
Variable earth : body.
Variable cos E : list R.
Variable numneu : nat.
Variable t : nt.
Variable iint : bool.
Variable x : option xslib.
Variable a0 : atm.
Hypothesis MK : make_atm e track_of grow earth cos E numneu t iint x = (Done, Some a0).
Hypothesis IN : e_ini_num e true = true.
Hypothesis GM : good_media m.
Hypothesis EX : exact_all order m emission tab mat_of dot dec e.
Hypothesis SU : forall n, su_repr n (mat_of n) (dot n).
Hypothesis OO : Forall (fun p => (fst p < snd p < numneu)%nat) order.

Definition path_of (i : nat) : track := track_of (nth i cos 0).

Definition held (tr : track) (b : option body) (s : nus) : Prop :=
  fine e tr s /\ q_body s = b /\ bounds s = (numneu, length E, E, if nt_eqb t IntModel.Both then 2%nat else 1%nat).

(** *** A new ensemble *)
Lemma make_nodes_held : forall cs i acc r l pre, make_nodes e track_of grow earth E numneu t iint x i cs acc = (r, l) -> r = Done ->
  Forall2 (fun c s => held (track_of c) (Some earth) s) pre acc -> Forall2 (fun c s => held (track_of c) (Some earth) s) (pre ++ cs) l.
Proof.
  clear MK IN GM EX SU OO. induction cs as [|c cs IH]; intros i acc r l pre H Rd Ha; cbn [make_nodes] in H.
  - injection H as <- <-. rewrite app_nil_r. exact Ha.
  - destruct (make_multi e E numneu t iint x) as [[r0 s0] ev0] eqn:Hm. destruct r0; try (exfalso; congruence).
    assert (Q : (3 <= numneu)%nat /\ (numneu <= e_maxdim e)%nat /\ E <> []).
    { unfold make_multi in Hm. cbv zeta in Hm. destruct (Nat.ltb_spec (e_maxdim e) numneu); [discriminate|].
      destruct (Nat.ltb_spec numneu 3); [discriminate|]. destruct E; [discriminate|]. repeat split; [lia|lia|discriminate]. }
    destruct Q as (Q1 & Q2 & Q3). destruct (make_multi_ok e E numneu t iint x Q1 Q2 Q3) as (s1 & Hm1 & Re).
    rewrite Hm in Hm1. injection Hm1 as <- _. unfold rest in Re.
    injection Re as R1 R2 R3 R4 R5 R6 R7 R8 R9 R10 R11 R12 R13 R14 R15 R16.
    unfold set_body, set_track, seq_, modify in H. cbv iota beta in H. destruct (make_nodes _ _ _ _ _ _ _ _ _ _ _ _) as [r1 l1] eqn:Hr in H.
    injection H as -> ->. set (sn := put_f_track true _) in Hr.
    assert (Nn : held (track_of c) (Some earth) sn).
    { unfold held, sn, bounds. cbn. rewrite R2, R3, R4, R5. repeat split; cbn; rewrite ?R1, ?R2, ?R4, ?R6, ?R7; cbn; try assumption; try reflexivity; try lia; try discriminate.
      - intros ->. reflexivity.
      - destruct t; try reflexivity. congruence. }
    change (c :: cs) with ([c] ++ cs). rewrite app_assoc. eapply IH; [exact Hr|exact Rd|]. apply Forall2_app; [|constructor; [exact Nn|constructor]].
    destruct (grow i); [|exact Ha]. clear -Ha. induction Ha as [|c0 s pre acc H Ha IH]; [constructor|]. cbn [map]. constructor; [|exact IH].
    destruct H as ([A1 A2 A3 A4 A5 A6 A7 A8 A9 A10 A11 A12] & H2 & H3). split; [|split; [exact H2|exact H3]]. constructor; try assumption. reflexivity.
Qed.

Definition all_held (a : atm) : Prop := forall i s, nth_error (a_nodes a) i = Some s -> held (path_of i) (a_earth a) s.

Lemma made_held : all_held a0.
Proof.
  unfold make_atm in MK. destruct (make_nodes _ _ _ _ _ _ _ _ _ _ _ _) as [r l] eqn:Hn. destruct r; try discriminate MK.
  destruct l as [|s1 l]; [discriminate MK|]. assert (A : a_nodes a0 = s1 :: l /\ a_earth a0 = Some earth) by (injection MK as <-; split; reflexivity).
  destruct A as (A1 & A2). pose proof (make_nodes_held _ _ _ _ _ [] Hn eq_refl (Forall2_nil _)) as F. cbn [app] in F. rewrite <- A1 in F.
  intros i s Hi. rewrite A2. unfold path_of. revert i Hi. clear -F. induction F as [|c s0 cs l H F IH]; intros i Hi; [destruct i; discriminate Hi|].
  destruct i as [|i]; cbn in *; [injection Hi as <-; exact H|exact (IH i Hi)].
Qed.

Lemma made : made_atm e a0.
Proof. econstructor. exact MK. Qed.

Lemma after_is h a : ahist e a0 h a -> after e a0 h = a.
Proof. induction 1 as [|h a c r a' H IH EE U]; [reflexivity|]. cbn [after]. rewrite IH, EE. reflexivity. Qed.

Lemma back_at a c r a' i s' : aexec e c a = (r, a') -> nth_error (a_nodes a') i = Some s' -> exists s, nth_error (a_nodes a) i = Some s.
Proof.
  intros EE Hi. pose proof (aexec_frame e c a) as F. rewrite EE in F. unfold frame_of in F. injection F as _ _ _ L.
  assert (X : (i < length (a_nodes a'))%nat) by (apply nth_error_Some; congruence). destruct (nth_error (a_nodes a) i) as [s|] eqn:N; [eauto|].
  apply nth_error_None in N. cbn in L. lia.
Qed.

(** what a call leaves a node with *)
Lemma hist_held h a : ahist e a0 h a -> by_ensemble h -> aoscillating h -> all_held a.
Proof.
  induction 1 as [|h a c r a' H IH EE U]; intros B N; [exact made_held|].
  assert (B' : by_ensemble h) by (intros c1 r1 X; apply (B c1 r1); right; exact X).
  assert (N' : aoscillating h) by (intros c1 r1 X; apply (N c1 r1); right; exact X). specialize (IH B' N').
  pose proof (B c r (or_introl eq_refl)) as NC. pose proof (N c r (or_introl eq_refl)) as CC.
  pose proof (aexec_earth e c a) as AE. rewrite EE in AE. cbn [snd] in AE.
  intros i s' Hi. destruct (back_at a c r a' i s' EE Hi) as (s & Is).
  destruct (IH i s Is) as (F & QB & BO).
  destruct (aexec_did e c a r a' i s NC EE Is) as (s2 & I2 & D). rewrite Hi in I2. injection I2 as <-.
  assert (INI : sets_state c = true -> held (path_of i) (a_earth a') s').
  { intro SC. assert (Hc : (exists d0 d1 d2 v b, c = AInit3 d0 d1 d2 v b) \/ (exists d0 d1 d2 d3 v b, c = AInit4 d0 d1 d2 d3 v b)) by (destruct c; try discriminate SC; [left|right]; repeat eexists).
    destruct (AtmProps.c73_set_state e a0 h a made H B' c Hc) as [(l & X & _)|X]; rewrite EE in X.
    - injection X as -> ->. destruct c; try discriminate SC; cbn [did] in D; destruct (D eq_refl) as (ev & Z);
        [apply filled3 in Z|apply filled4 in Z]; pose proof (fill_set e _ _ _ _ _ _ F Z) as SS;
        (split; [exact (fine_set e _ _ _ SS IN F)|]; split; [rewrite (ss_body _ _ _ _ SS); exact QB|];
         unfold bounds in *; rewrite (ss_numneu _ _ _ _ SS), (ss_ne _ _ _ _ SS), (ss_E _ _ _ _ SS), (ss_nrhos _ _ _ _ SS); exact BO).
    - injection X as _ ->. rewrite Is in Hi. injection Hi as <-. split; [exact F|]. split; [exact QB|exact BO]. }
  destruct c; try discriminate NC; try (apply INI; reflexivity); cbn [did] in D; clear INI; rewrite AE; unfold held.
  - destruct D as [-> | ->]; [split; [exact F|]; split; [exact QB|exact BO]|].
    destruct (set_node e _ _ c F) as (F' & (R1 & _ & R3) & _); [clear -CC; destruct c; try exact I; destruct b; (exact I || exact CC)|].
    split; [exact F'|]. split; [rewrite R1; exact QB|rewrite R3; exact BO].
  - subst s'. destruct F as [A1 A2 A3 A4 A5 A6 A7 A8 A9 A10 A11 A12]. split; [constructor; try assumption; reflexivity|]. split; [reflexivity|exact BO].
  - subst s'. split; [apply (fine_view e _ s); [reflexivity|exact F]|]. split; [exact QB|exact BO].
  - subst s'. split; [apply (fine_view e _ s); [reflexivity|exact F]|]. split; [exact QB|exact BO].
  - destruct D as [-> | ->]; (split; [apply (fine_view e _ s); [reflexivity|exact F]|]; split; [exact QB|exact BO]).
  - destruct D as (s1 & B1 & D). destruct (ints_node e _ s s1 B1 F) as (F1 & (R1 & _ & R3) & _).
    destruct D as [-> | ->]; [split; [exact F1|]; split; [rewrite R1; exact QB|rewrite R3; exact BO]|].
    destruct (evolve_node e _ s1 F1) as (F2 & (R4 & _ & R6)). split; [exact F2|]. split; [rewrite R4, R1; exact QB|rewrite R6, R3; exact BO].
  - subst s'. split; [exact F|]. split; [exact QB|exact BO].
Qed.

(** *** Each node has come along its stages *)
Lemma stages_snoc i l gs a g : stages tab i l gs -> (exists s b tr, nth_error (a_nodes a) i = Some s /\ a_earth a = Some b /\ q_track s = Some tr /\
    g = stage_of tab s (Leg b 0 (length_of tr))) -> stages tab i (l ++ [a]) (gs ++ [g]).
Proof. intros F G. apply Forall2_app; [exact F|]. constructor; [exact G|constructor]. Qed.

Hypothesis LE : forall c, In c cos -> tr_ini (track_of c) <= tr_fin (track_of c).

Lemma crossing h a b v l : crossed e a0 h b v l -> ahist e a0 h a -> by_ensemble h -> aoscillating h ->
  forall i s, nth_error (a_nodes a) i = Some s -> exists gs, stages tab i l gs /\ on_voyage order m emission dec s (tr_ini (path_of i)) b (v i) gs /\ q_offset s = Some 0.
Proof.
  intro C. revert a. induction C as [c h b v SC PU|h b v l C IH EA DN|c r h b v l C IH HA]; intros a' H B N;
    pose proof (hist_held _ _ H B N) as HH'; inversion H as [|h' a c' r' a1 H' EE U]; subst;
    assert (B' : by_ensemble h) by (intros c1 r1 X; apply (B c1 r1); right; exact X);
    assert (N' : aoscillating h) by (intros c1 r1 X; apply (N c1 r1); right; exact X);
    pose proof (hist_held _ _ H' B' N') as HH; intros i s' Hi; destruct (back_at _ _ _ _ i s' EE Hi) as (s & Is);
    destruct (HH i s Is) as (F & QB & BO);
    assert (NN : q_numneu s = numneu) by (unfold bounds in BO; injection BO as X _ _ _; exact X).
  - pose proof (B _ _ (or_introl eq_refl)) as NC. destruct (aexec_did e c a Done a' i s NC EE Is) as (s2 & I2 & D). rewrite Hi in I2. injection I2 as <-.
    exists []. split; [constructor|]. destruct c; try discriminate SC; cbn [put] in PU; injection PU as <- <-; cbn [did] in D; destruct (D eq_refl) as (ev & Z);
      [apply filled3 in Z|apply filled4 in Z];
      apply (fill_nil e _ _ _ _ _ _ F) in Z;
      (destruct (begins e order m emission tab mat_of dot dec _ s s' _ _ F IN EX ltac:(rewrite NN; exact OO) Z) as (_ & OV & OF & _); split; [exact OV|exact OF]).
  - rewrite (after_is _ _ H') in EA, DN.
    assert (TH : a_threads a <> None).
    { clear -H' MK IN. induction H' as [|h a c r a' H IH EE U].
      - unfold make_atm in MK. destruct (make_nodes _ _ _ _ _ _ _ _ _ _ _ _) as [r l]. destruct r; try discriminate MK. destruct l; [discriminate MK|]. injection MK as <-. discriminate.
      - pose proof (aexec_threads e c a) as X. rewrite EE in X. cbn [snd] in X. rewrite X. destruct c; try exact IH. discriminate. }
    destruct (evolve_did e a Done a' i s EE DN TH Is) as (s2 & s1 & ev & I2 & B1 & EV). rewrite Hi in I2. injection I2 as <-.
    destruct (IH a H' B' N' i s Is) as (gs & SG & OV & OF).
    destruct (ints_node e _ s s1 B1 F) as (F1 & (R1 & R2 & R3) & VV). apply (stays order m emission dec s s1 _ _ _ _ VV) in OV.
    destruct (a_earth a) as [bd|] eqn:AE; [|congruence].
    assert (BO1 : bounds s1 = bounds s) by exact R3. assert (N1 : q_numneu s1 = numneu) by (unfold bounds in BO1; injection BO1 as X _ _ _; congruence).
    assert (Hn : (i < length cos)%nat).
    { destruct (hist_nodes e a0 h a made H' B') as (_ & _ & LL & _). assert (Q : a_cos a = cos).
      { assert (Fr : frame_of a = frame_of a0) by (clear -H'; induction H' as [|h a c r a' H IH EE U]; [reflexivity|]; rewrite <- IH, <- (aexec_frame e c a), EE; reflexivity).
        unfold frame_of in Fr. injection Fr as _ Fr _ _. rewrite Fr. clear -MK. unfold make_atm in MK. destruct (make_nodes _ _ _ _ _ _ _ _ _ _ _ _) as [r l]. destruct r; try discriminate MK. destruct l; [discriminate MK|]. injection MK as <-. reflexivity. }
      rewrite <- Q, <- LL. apply nth_error_Some. congruence. }
    pose proof (goes_on e order m emission tab mat_of dot dec (path_of i) bd 0 s1 s' ev (tr_ini (path_of i)) b (v i) gs F1 GM EX ltac:(rewrite N1; exact OO) (SU _)
      ltac:(rewrite R1; exact QB) ltac:(rewrite R2; exact OF) (LE _ (nth_In _ 0 Hn)) OV EV) as OV'.
    destruct (HH' i s' Hi) as (F' & QB' & _).
    exists (gs ++ [stage_of tab s' (Leg bd 0 (tr_fin (path_of i) - tr_ini (path_of i)))]). split; [|split; [exact OV'|]].
    + apply stages_snoc; [exact SG|]. cbn [after]. rewrite (after_is _ _ H'), EE. cbn [snd].
      exists s', bd, (path_of i). split; [exact Hi|]. split; [|split; [apply F'|reflexivity]].
      pose proof (aexec_earth e AEvolve a) as X. rewrite EE in X. cbn [snd] in X. congruence.
    + destruct (evolve_node e _ s1 F1) as (_ & _ & X & _). rewrite EV in X. cbn [out_obj fst snd] in X. congruence.
  - destruct (IH a H' B' N' i s Is) as (gs & SG & OV & OF). exists gs. split; [exact SG|].
    pose proof (B _ _ (or_introl eq_refl)) as NC. pose proof (N _ _ (or_introl eq_refl)) as CC.
    destruct (aexec_did e c a r a' i s NC EE Is) as (s2 & I2 & D). rewrite Hi in I2. injection I2 as <-.
    destruct HA as [HA|(SC & ->)].
    + assert (K : vview s' = vview s /\ q_offset s' = q_offset s).
      { destruct c; try discriminate HA; cbn [did] in D; try (subst s'; split; reflexivity).
        - destruct D as [-> | ->]; [split; reflexivity|].
          destruct (set_node e _ _ c F) as (_ & (_ & R2 & _) & V); [clear -CC; destruct c; try exact I; destruct b; (exact I || exact CC)|]. split; [exact (V HA)|exact R2].
        - destruct D as [-> | ->]; split; reflexivity. }
      destruct K as (K1 & K2). split; [exact (stays order m emission dec s s' _ _ _ _ K1 OV)|congruence].
    + assert (Hc : (exists d0 d1 d2 v b, c = AInit3 d0 d1 d2 v b) \/ (exists d0 d1 d2 d3 v b, c = AInit4 d0 d1 d2 d3 v b)) by (destruct c; try discriminate SC; [left|right]; repeat eexists).
      destruct (AtmProps.c73_set_state e a0 h a made H' B' c Hc) as [(l1 & X & _)|X]; rewrite EE in X; [discriminate X|]. injection X as ->.
      rewrite Is in Hi. injection Hi as <-. split; [exact OV|exact OF].
Qed.
End Life.
