(** Call histories: what the caller can know about an evolution object from
    the calls made on it. *)
From Coq Require Import Reals List Arith Bool ZArith Lia Lra.
From Verif Require Import IntModel XsModel StateModel StateProofs.
Import ListNotations.
Open Scope R_scope.

(** ** Specification: facts read off the list of calls *)

(** the medium given last *)
Fixpoint last_body (h : list entry) : option (option body) :=
  match h with
  | [] => None
  | (CBody b, Done, _, _) :: _ => Some b
  | _ :: h => last_body h
  end.

(** the trajectory given last *)
Fixpoint last_track (h : list entry) : option track :=
  match h with
  | [] => None
  | (CTrack (Some t), Done, _, _) :: _ => Some t
  | _ :: h => last_track h
  end.

Definition energy_given (h : list entry) : Prop :=
  exists v ev s, In (CEnergy v, Done, ev, s) h.

(** a state was set, and no parameter or energy was changed after that *)
Inductive state_valid : list entry -> Prop :=
| sv_set c ev s h : is_init c = true -> state_valid ((c, Done, ev, s) :: h)
| sv_keep c r ev s h : state_valid h -> is_param c = false \/ r <> Done ->
    state_valid ((c, r, ev, s) :: h).

(** trajectory and reading of the clock when the position was last tied to it *)
Fixpoint anchor (h : list entry) : option (track * R) :=
  match h with
  | [] => None
  | (c, r, _, s) :: h =>
    match r with
    | Done =>
      match c with
      | CTrack (Some t) => Some (t, sq_t (q_sq s))
      | _ => if is_init c
             then match last_track h with Some t => Some (t, sq_t (q_sq s)) | None => None end
             else anchor h
      end
    | _ => anchor h
    end
  end.

(** all that is needed for an evolution *)
Definition complete (multi : bool) (h : list entry) : Prop :=
  (exists b, last_body h = Some (Some b)) /\ (exists t, last_track h = Some t) /\
  (multi = true \/ energy_given h) /\ state_valid h.

(** ** A condition kept by a call, with conditions on events and outcome *)

Definition triple (I : nus -> Prop) (Ev : event -> Prop) (Rs : res -> Prop) (m : M) : Prop :=
  forall s, I s -> I (out_obj (m s)) /\ Forall Ev (out_evs (m s)) /\ Rs (out_res (m s)).

Section Triple.
  Variable I : nus -> Prop.
  Variable Ev : event -> Prop.
  Variable Rs : res -> Prop.

  Lemma tr_ret : Rs Done -> triple I Ev Rs ret. Proof. intros H s HI. repeat split; auto. constructor. Qed.
  Lemma tr_throw : Rs Threw -> triple I Ev Rs throw. Proof. intros H s HI. repeat split; auto. constructor. Qed.
  Lemma tr_undef u : Rs (Undef u) -> triple I Ev Rs (undef u).
  Proof. intros H s HI. repeat split; auto. constructor. Qed.
  Lemma tr_emit ev : Rs Done -> Ev ev -> triple I Ev Rs (emit ev).
  Proof. intros H He s HI. repeat split; auto. constructor; [exact He|constructor]. Qed.
  Lemma tr_modify f : Rs Done -> (forall s, I s -> I (f s)) -> triple I Ev Rs (modify f).
  Proof. intros H Hf s HI. repeat split; auto. cbn. apply Hf, HI. constructor. Qed.
  Lemma tr_seq a b : triple I Ev Rs a -> triple I Ev Rs b -> triple I Ev Rs (a ;; b)%m.
  Proof.
    intros Ha Hb s HI. rewrite seq_eq. specialize (Ha s HI).
    destruct (a s) as [[r s1] e1]. cbn in Ha. destruct Ha as (H1 & H2 & H3).
    destruct r; [|repeat split; assumption|repeat split; assumption].
    specialize (Hb s1 H1). destruct (b s1) as [[r s2] e2]. cbn in *.
    destruct Hb as (H4 & H5 & H6). repeat split; try assumption. apply Forall_app. auto.
  Qed.
  Lemma tr_read f : (forall s0, I s0 -> triple I Ev Rs (f s0)) -> triple I Ev Rs (read f).
  Proof. intros H s HI. apply (H s HI s HI). Qed.
  (** at the state itself *)
  Lemma tr_read_at f : (forall s0, I s0 -> I (out_obj (f s0 s0)) /\ Forall Ev (out_evs (f s0 s0)) /\ Rs (out_res (f s0 s0))) ->
    triple I Ev Rs (read f).
  Proof. intros H s HI. apply (H s HI). Qed.
  Lemma tr_when b m : Rs Done -> (b = true -> triple I Ev Rs m) -> triple I Ev Rs (when b m).
  Proof. intros H Hm. destruct b; [apply Hm; reflexivity|apply tr_ret, H]. Qed.
  Lemma tr_mfor k : forall i f, Rs Done -> (forall j, triple I Ev Rs (f j)) -> triple I Ev Rs (mfor k i f).
  Proof.
    induction k as [|k IH]; intros i f H Hf; cbn [mfor]; [apply tr_ret, H|].
    apply tr_seq; [apply Hf|apply IH; assumption].
  Qed.
  Lemma tr_meach A (l : list A) f : Rs Done -> (forall a, triple I Ev Rs (f a)) -> triple I Ev Rs (meach l f).
  Proof.
    intros H Hf. induction l as [|a l IH]; cbn [meach]; [apply tr_ret, H|].
    apply tr_seq; [apply Hf|apply IH].
  Qed.
End Triple.

Section Machine.
Variable e : env.

(** ** New objects *)

(** what a new object is like *)
Record new_obj (k : bool) (s : nus) : Prop := {
  nw_wf : wf e s; nw_track : q_track s = None; nw_body : q_body s = None;
  nw_offset : q_offset s = None;
  nw_fbody : f_body (q_flags s) = false; nw_ftrack : f_track (q_flags s) = false;
  nw_state : f_state (q_flags s) = false; nw_energy : f_energy (q_flags s) = k;
  nw_phase : forall a b, p_phase (q_pars s) a b = 0;
  nw_t : sq_t (q_sq s) = 0; nw_num : sq_num (q_sq s) = true;
  nw_h : sq_h (q_sq s) = if k then e_h e else e_km e;
  nw_tabs : i_tabs (q_ints s) = None; nw_done : i_done (q_ints s) = false;
  nw_opts : exists i sc, q_opts s = Opts i true false false false false false false BInter sc;
  nw_ints : exists x, q_ints s = Ints x None false 0 0 0 None 0;
  nw_one : k = false -> o_scale (q_opts s) = 0 }.

(** up to parameters, projectors, vacuum Hamiltonian and validity of the state *)
Definition rest (s : nus) :=
  (q_nt s, q_numneu s, q_ne s, q_nrhos s, q_E s, q_sq s, q_opts s, q_ints s, q_body s, q_track s,
   (q_x s, q_offset s, f_nus (q_flags s), f_body (q_flags s), f_energy (q_flags s), f_track (q_flags s))).

Lemma rest_phase s s' : phase_frame s s' -> rest s' = rest s.
Proof. intro F. rewrite F. reflexivity. Qed.
Lemma rest_proj s s' : proj_frame s s' -> rest s' = rest s.
Proof. intros (F & _). rewrite F. reflexivity. Qed.

Lemma new_of_rest k s t numneu ne nrhos E iint x h sc :
  (3 <= numneu)%nat -> (numneu <= e_maxdim e)%nat -> (0 < ne)%nat ->
  rest s = (t, numneu, ne, nrhos, E, Sqd 0 0 h true [],
            Opts iint true false false false false false false BInter sc,
            Ints x None false 0 0 0 None 0, None, None,
            (0, None, f_nus (q_flags s), false, k, false)) ->
  h = (if k then e_h e else e_km e) -> (k = false -> sc = 0) ->
  f_state (q_flags s) = false -> (forall a b, p_phase (q_pars s) a b = 0) ->
  new_obj k s.
Proof.
  intros H3 Hm Hn X Hh Hs Fs P. unfold rest in X.
  injection X as X1 X2 X3 X4 X5 X6 X7 X8 X9 X10 X11 X12 X13 X14 X15.
  constructor; try assumption; rewrite ?X6, ?X7, ?X8; try reflexivity; try assumption.
  - constructor; rewrite ?X2, ?X3, ?X10, ?X12, ?X15; try assumption; try discriminate. congruence.
  - eauto.
  - eauto.
Qed.

Lemma made_spec k s : made e k s -> new_obj k s.
Proof.
  intro H. destruct H as [E numneu t iint x s ev H|numneu t s ev H].
  - unfold make_multi in H. cbv zeta in H. set (b := blank _ _ _ _ _ _ _ _) in H.
    destruct (Nat.ltb_spec (e_maxdim e) numneu) as [|Hm]; [discriminate H|].
    destruct (Nat.ltb_spec numneu 3) as [|H3]; [discriminate H|].
    destruct (Nat.eqb_spec (length E) 0) as [|HE]; [discriminate H|].
    rewrite seq_eq in H. unfold modify at 1 in H. rewrite seq_eq in H. unfold modify at 1 in H.
    rewrite seq_eq in H. set (b1 := put_f_energy true _) in H.
    destruct (set_defaults_eq e b1) as (p & E1 & P1); [exact H3|exact Hm|]. rewrite E1 in H.
    rewrite seq_eq in H. set (b2 := put_f_state false _) in H.
    destruct (set_projectors_eq e b2) as (b3 & E3 & F3 & B3); [exact Hm|].
    rewrite E3 in H. unfold ini_h0, modify in H.
    pose proof (rest_proj _ _ F3) as R3.
    assert (FE : f_energy (q_flags b3) = true).
    { unfold rest in R3. injection R3 as _ _ _ _ _ _ _ _ _ _ _ _ _ _ X _. exact X. }
    rewrite FE in H. injection H as <- _.
    destruct F3 as (_ & G3 & P3).
    assert (FS : f_state (q_flags b3) = false).
    { destruct (f_state (q_flags b3)) eqn:X; [|reflexivity]. specialize (G3 eq_refl). discriminate G3. }
    eapply (new_of_rest true _ t numneu (length E) _ E iint x (e_h e)); try eassumption; try lia.
    + change (rest (set_q_h0 (Hsnap (p_dm (q_pars b3)) (o_osc (q_opts b3)) (q_E b3)) b3)) with (rest b3).
      rewrite R3. unfold rest, b2, b1, b, blank.
      change (f_nus (q_flags (set_q_h0 _ b3))) with (f_nus (q_flags b3)).
      assert (N : f_nus (q_flags b3) = false).
      { unfold rest in R3. injection R3 as _ _ _ _ _ _ _ _ _ _ _ _ X _ _ _. exact X. }
      cbn [set_q_h0 q_flags]. rewrite N. reflexivity.
    + reflexivity.
    + intros a c. cbn [set_q_h0 q_pars]. rewrite P3. unfold b2. cbn [put_f_state set_q_flags q_pars set_q_pars]. rewrite P1.
      unfold upd2. cbn. destruct (Nat.eqb a 0 && Nat.eqb c 2); reflexivity.
  - unfold make_single in H. cbv zeta in H. set (b := blank _ _ _ _ _ _ _ _) in H.
    destruct (nt_eqb t Both) eqn:T; [discriminate H|].
    destruct (Nat.ltb_spec (e_maxdim e) numneu) as [|Hm]; [discriminate H|].
    destruct (Nat.ltb_spec numneu 3) as [|H3]; [discriminate H|].
    rewrite seq_eq in H.
    destruct (set_defaults_eq e b) as (p & E1 & P1); [exact H3|exact Hm|]. rewrite E1 in H.
    rewrite seq_eq in H. set (b2 := put_f_state false _) in H.
    assert (P2 : forall a c, p_phase (q_pars b2) a c = 0).
    { intros a c. unfold b2. cbn [put_f_state set_q_flags q_pars set_q_pars]. rewrite P1.
      unfold upd2. cbn. destruct (Nat.eqb a 0 && Nat.eqb c 2); reflexivity. }
    assert (X : exists b4, when (nt_eqb t NuBar) (flip_phases e) b2 = (Done, b4, []) /\
      phase_frame b2 b4 /\ (f_state (q_flags b4) = true -> f_state (q_flags b2) = true) /\
      forall a c, p_phase (q_pars b4) a c = 0).
    { unfold when. destruct (nt_eqb t NuBar).
      - destruct (flip_eq e b2) as (b4 & E4 & F4 & G4 & P4); [exact Hm|].
        exists b4. repeat split; try assumption. intros a c. rewrite P4, P2.
        destruct (pair_in _ a c); lra.
      - exists b2. repeat split; try tauto. apply phase_frame_refl. }
    destruct X as (b4 & E4 & F4 & G4 & P4). rewrite E4 in H. rewrite seq_eq in H.
    pose proof (rest_phase _ _ F4) as R4.
    assert (N4 : q_numneu b4 = numneu).
    { unfold rest in R4. injection R4 as _ X _ _ _ _ _ _ _ _ _ _ _ _ _ _. exact X. }
    destruct (set_projectors_eq e b4) as (b3 & E3 & F3 & B3); [rewrite N4; exact Hm|].
    rewrite E3 in H. rewrite seq_eq in H. unfold ini_h0, modify in H.
    pose proof (rest_proj _ _ F3) as R3. rewrite R4 in R3.
    assert (FE : f_energy (q_flags b3) = false).
    { unfold rest in R3. injection R3 as _ _ _ _ _ _ _ _ _ _ _ _ _ _ X _. exact X. }
    rewrite FE in H. injection H as <- _. destruct F3 as (_ & G3 & P3).
    assert (FS : f_state (q_flags b3) = false).
    { destruct (f_state (q_flags b3)) eqn:X; [|reflexivity]. specialize (G4 (G3 eq_refl)). discriminate G4. }
    eapply (new_of_rest false _ t numneu 1 1 [] false None (e_km e) 0); try eassumption; try lia.
    + unfold rest in R3 |- *. cbn [put_f_nus set_q_flags set_f_nus q_nt q_numneu q_ne q_nrhos q_E q_sq
        q_opts q_ints q_body q_track q_x q_offset q_flags f_nus f_body f_energy f_track].
      injection R3 as -> -> -> -> -> -> -> -> -> -> -> -> _ -> -> ->. reflexivity.
    + reflexivity.
    + reflexivity.
    + intros a c. cbn [put_f_nus set_q_flags q_pars]. rewrite P3. apply P4.
Qed.

(** ** The object and its history *)

Record agrees (k : bool) (h : list entry) (s : nus) : Prop := {
  ag_wf : wf e s;
  ag_fbody : f_body (q_flags s) = true <-> last_body h <> None;
  ag_body : q_body s = match last_body h with Some b => b | None => None end;
  ag_track : q_track s = last_track h;
  ag_energy : f_energy (q_flags s) = true <-> (k = true \/ energy_given h);
  ag_state : f_state (q_flags s) = true <-> state_valid h;
  ag_fresh : f_state (q_flags s) = true -> fresh s;
  ag_anchor : match anchor h with
              | Some (t, c) => last_track h = Some t /\ q_offset s = Some (c - tr_ini t)
              | None => last_track h = None end }.

Lemma fresh_core s s' : core s' = core s -> fresh s -> fresh s'.
Proof.
  unfold core. intros C (A & B & D). injection C as C1 C2 C3 C4 C5 C6 C7 C8 C9 C10 C11.
  unfold fresh. rewrite C1, C2, C4, C5, C6, C7, C8. auto.
Qed.

Lemma energy_cons x h : (forall v, fst (fst (fst x)) <> CEnergy v) \/ snd (fst (fst x)) <> Done ->
  energy_given (x :: h) <-> energy_given h.
Proof.
  intro N. unfold energy_given. split; intros (v & ev & s & H).
  - destruct H as [->|H]; [|exists v, ev, s; exact H]. cbn in N. exfalso.
    destruct N as [N|N]; [exact (N v eq_refl)|exact (N eq_refl)].
  - exists v, ev, s. right. exact H.
Qed.

(** a call that is neither setting the state, nor parameters, nor the place *)
Lemma last_other c r ev s h : is_place c = false ->
  last_body ((c, r, ev, s) :: h) = last_body h /\ last_track ((c, r, ev, s) :: h) = last_track h.
Proof. intro H. destruct c; try discriminate H; destruct r; split; reflexivity. Qed.

Lemma last_threw c r ev s h : r <> Done ->
  last_body ((c, r, ev, s) :: h) = last_body h /\ last_track ((c, r, ev, s) :: h) = last_track h /\
  anchor ((c, r, ev, s) :: h) = anchor h.
Proof. intro H. destruct r; [congruence| |]; (split; [destruct c; reflexivity|split; [destruct c as [b|[t|]| | | | | | | | | | | | | | | | | | | |]; reflexivity|reflexivity]]). Qed.

Lemma valid_threw c r ev s h : r <> Done ->
  state_valid ((c, r, ev, s) :: h) <-> state_valid h.
Proof.
  intro H. split; intro V.
  - inversion V; subst; [congruence|assumption].
  - apply sv_keep; auto.
Qed.

Lemma valid_other c r ev s h : is_init c = false -> is_param c = false ->
  state_valid ((c, r, ev, s) :: h) <-> state_valid h.
Proof.
  intros H1 H2. split; intro V.
  - inversion V; subst; [congruence|assumption].
  - apply sv_keep; auto.
Qed.

Lemma is_init_place c : is_init c = true -> is_place c = false.
Proof. destruct c; cbn; congruence. Qed.
Lemma is_param_place c : is_param c = true -> is_place c = false.
Proof. destruct c; cbn; congruence. Qed.
Lemma is_init_param c : is_init c = true -> is_param c = false.
Proof. destruct c; cbn; congruence. Qed.

Lemma agrees_step k h s c r s' ev :
  agrees k h s -> exec e c s = (r, s', ev) -> (forall u, r <> Undef u) ->
  agrees k ((c, r, ev, s') :: h) s'.
Proof.
  intros A E U. pose proof (wf_exec e c s r s' ev (ag_wf _ _ _ A) E) as W'.
  assert (Same : r <> Done -> s' = s -> agrees k ((c, r, ev, s') :: h) s').
  { intros R ->. destruct (last_threw c r ev s h R) as (L1 & L2 & L3).
    destruct A. constructor; rewrite ?L1, ?L2, ?L3; try assumption.
    - rewrite energy_cons by (right; exact R). assumption.
    - rewrite valid_threw by exact R. assumption. }
  destruct (is_init c) eqn:I.
  { pose proof (is_init_place c I) as PL.
    destruct (init_cases e c s (ag_wf _ _ _ A) I) as [X|(t & s1 & T & X & S1 & Fb & Ft & Fe & _)];
      rewrite X in E; injection E as <- <- <-.
    - apply Same; congruence.
    - destruct (last_other c Done [] s1 h PL) as (L1 & L2).
      pose proof (ss_flags _ _ _ _ S1) as FL.
      constructor; rewrite ?L1, ?L2.
      + exact W'.
      + rewrite FL. exact (ag_fbody _ _ _ A).
      + rewrite (ss_body _ _ _ _ S1). exact (ag_body _ _ _ A).
      + rewrite (ss_track _ _ _ _ S1), <- T. exact (ag_track _ _ _ A).
      + rewrite FL, energy_cons by (left; intros v; cbn; destruct c; discriminate || congruence).
        exact (ag_energy _ _ _ A).
      + rewrite FL. cbn. split; [intros _; apply sv_set; exact I|reflexivity].
      + intros _. apply S1.
      + cbn [anchor]. rewrite <- (ag_track _ _ _ A), T.
        assert (AN : (match c with CTrack (Some t) => Some (t, sq_t (q_sq s1))
           | _ => if is_init c then Some (t, sq_t (q_sq s1)) else anchor h end) = Some (t, sq_t (q_sq s1))).
        { rewrite I. destruct c; try discriminate I; reflexivity. }
        rewrite AN. split; [reflexivity|].
        rewrite (ss_offset _ _ _ _ S1), (ss_t _ _ _ _ S1). f_equal. lra. }
  destruct (is_param c) eqn:P.
  { pose proof (is_param_place c P) as PL.
    destruct (param_cases e c s (ag_wf _ _ _ A) P) as [X|(s1 & X & F & Fs & En1 & En2)];
      rewrite X in E; injection E as <- <- <-.
    - apply Same; congruence.
    - destruct (last_other c Done [] s1 h PL) as (L1 & L2).
      constructor; rewrite ?L1, ?L2.
      + exact W'.
      + rewrite F. exact (ag_fbody _ _ _ A).
      + rewrite F. exact (ag_body _ _ _ A).
      + rewrite F. exact (ag_track _ _ _ A).
      + pose proof (ag_energy _ _ _ A) as En. split.
        * intro H. destruct (En2 H) as [H1|(v & ->)].
          -- apply En in H1. destruct H1 as [H1|(v & ev & s2 & H1)]; [auto|].
             right. exists v, ev, s2. right. exact H1.
          -- right. exists v, [], s1. left. reflexivity.
        * intros [H|(v & ev & s2 & H)]; [apply En1, En; auto|].
          destruct H as [H|H].
          -- injection H as -> <- <-. cbn [exec] in X. unfold set_E, read, throw, modify in X.
             destruct (negb _); [discriminate X|]. injection X as <-. reflexivity.
          -- apply En1, En. right. exists v, ev, s2. exact H.
      + split; [congruence|]. intro V. inversion V; subst.
        * congruence.
        * destruct H5; congruence.
      + congruence.
      + cbn [anchor]. assert (AN : (match c with CTrack (Some t) => Some (t, sq_t (q_sq s1))
           | _ => if is_init c then match last_track h with Some t => Some (t, sq_t (q_sq s1)) | None => None end
                  else anchor h end) = anchor h).
        { rewrite I. destruct c; try discriminate P; reflexivity. }
        rewrite AN. replace (q_offset s1) with (q_offset s); [exact (ag_anchor _ _ _ A)|].
        rewrite F. reflexivity. }
  pose proof (core_exec e c I P s) as C. rewrite E in C. unfold core_keeps, keeps in C. cbn [out_obj fst snd] in C.
  pose proof C as C0. unfold core in C. injection C as C1 C2 C3 C4 C5 C6 C7 C8 C9 C10 C11.
  assert (En : energy_given ((c, r, ev, s') :: h) <-> energy_given h).
  { apply energy_cons. left. intro v. cbn. destruct c; discriminate || congruence. }
  destruct (is_place c) eqn:L.
  - destruct c; try discriminate L; cbn [exec] in E.
    + injection E as <- <- <-. destruct A. constructor; cbn [last_body last_track anchor is_init]; try assumption.
      * cbn. split; [discriminate|reflexivity].
      * reflexivity.
      * rewrite En. assumption.
      * rewrite valid_other by reflexivity. assumption.
    + destruct t as [t|]; cbn [set_track] in E.
      * injection E as <- <- <-. destruct A. constructor; cbn [last_body last_track anchor is_init]; try assumption.
        -- reflexivity.
        -- rewrite En. assumption.
        -- rewrite valid_other by reflexivity. assumption.
        -- split; reflexivity.
      * injection E as <- _ _. exfalso. exact (U NullPtr eq_refl).
  - pose proof (place_exec e c I L s) as D. rewrite E in D. unfold place_keeps, keeps, place in D. cbn in D.
    injection D as D1 D2 D3 D4 D5.
    destruct (last_other c r ev s' h L) as (L1 & L2).
    destruct A. constructor; rewrite ?L1, ?L2, ?D1, ?D2, ?D3, ?D4, ?D5, ?C9, ?C10, ?C11; try assumption.
    + rewrite En. assumption.
    + rewrite valid_other by assumption. assumption.
    + intro H. apply (fresh_core s); [exact C0|]. apply ag_fresh0. exact H.
    + assert (AN : anchor ((c, r, ev, s') :: h) = anchor h).
      { cbn [anchor]. rewrite I. destruct r; try reflexivity. destruct c; try discriminate L; reflexivity. }
      rewrite AN. assumption.
Qed.

Theorem history_agrees k s0 h s : made e k s0 -> history e s0 h s -> agrees k h s.
Proof.
  intros Mk H. induction H as [|h s c r s' ev H IH E U].
  - destruct (made_spec k s0 Mk) as [W T B O Fb Ft Fs Fe _ _ _ _ _ _ _].
    constructor; cbn; try assumption.
    + rewrite Fb. split; congruence.
    + rewrite Fe. split; [auto|]. intros [X|(v & ev & s & [])]. exact X.
    + rewrite Fs. split; [discriminate|]. intro V. inversion V.
    + congruence.
    + reflexivity.
  - eapply agrees_step; eauto.
Qed.

End Machine.
