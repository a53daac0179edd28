(** Properties of the life of an evolution object: C43-C52, C61, C63, C66, C67. *)
From Coq Require Import Reals List Arith Bool ZArith Lia Lra.
From Verif Require Import IntModel XsModel XsProofs StateModel StateProofs StateHistory StateLaws StateReady.
Import ListNotations.
Open Scope R_scope.

(** ** A concrete surrounding, used in examples *)

Definition lib1 : xslib := Xslib 1 true true false true true.
Definition lib2 : xslib := Xslib 2 true true false true true.
(** a library without any usable target *)
Definition lib0 : xslib := Xslib 0 true false false true true.

Definition wenv : env :=
  Env (fun s dt => ([sq_t (q_sq s) + dt], true, 0, [3])) (fun h => h) (fun n => n)
      (fun _ _ _ => [1; 2]) (fun s => sq_state (q_sq s)) (fun s _ => sq_state (q_sq s))
      (Some lib1) (fun _ => true) 6 1 1.
(** the same with an integrator that gives up halfway *)
Definition wfail : env :=
  Env (fun s dt => ([sq_t (q_sq s) + dt / 2], false, sq_t (q_sq s) + dt / 2, [3])) (fun h => h) (fun n => n)
      (fun _ _ _ => [1; 2]) (fun s => sq_state (q_sq s)) (fun s _ => sq_state (q_sq s))
      (Some lib1) (fun _ => true) 6 1 1.

Definition rock : body := Body 1 true.
Definition earth : body := Body 2 false.
Definition fwd : track := Track 0 4.
Definition off_fwd : track := Track 1 4.
Definition back_ : track := Track 4 0.

(** the calls of a history, latest first *)
Definition calls_of (h : list entry) : list call := map (fun en => fst (fst (fst en))) h.
Definition all_done (h : list entry) : Prop := Forall (fun en => snd (fst (fst en)) = Done) h.
Definition v0 : nat -> nat -> nat -> R := fun _ _ _ => 1.

(** ** C43: evolving needs a complete setup *)

(** Whatever was called before, an evolution is refused without touching
    anything unless medium, trajectory and energy were given and a state set
    that is still valid. *)
Theorem c43_setup_needed e k s0 h s : made e k s0 -> history e s0 h s ->
  exec e CEvolve s = (Threw, s, []) \/ complete k h.
Proof.
  intros Mk H. pose proof (history_agrees e k s0 h s Mk H) as A. cbn [exec].
  destruct (q_body s) as [b|] eqn:B; [|left; unfold evolve_state, read; rewrite B; reflexivity].
  destruct (q_track s) as [t|] eqn:T.
  2:{ left. unfold evolve_state, read. rewrite B, T. destruct (negb _); reflexivity. }
  destruct (has_all s) eqn:HA; [|left; rewrite (evolve_state_eq e b t s B T), HA; reflexivity].
  right. unfold has_all in HA. apply andb_prop in HA. destruct HA as [HA H4].
  apply andb_prop in HA. destruct HA as [HA H3]. apply andb_prop in HA. destruct HA as [H1 H2].
  unfold complete. repeat split.
  - pose proof (ag_body _ _ _ _ A) as X. rewrite B in X.
    destruct (last_body h) as [[b'|]|]; try discriminate X. eauto.
  - exists t. rewrite <- (ag_track _ _ _ _ A). exact T.
  - apply (ag_energy _ _ _ _ A). exact H4.
  - apply (ag_state _ _ _ _ A). exact H3.
Qed.

(** in particular a successful evolution had all it needs *)
Corollary c43_success_complete e k s0 h s s' ev : made e k s0 -> history e s0 h s ->
  exec e CEvolve s = (Done, s', ev) -> complete k h.
Proof.
  intros Mk H E. destruct (c43_setup_needed e k s0 h s Mk H) as [X|X]; [|exact X].
  rewrite E in X. discriminate X.
Qed.

Ltac open_ready R := let FS := fresh "FS" in destruct R as (R & FS); unfold rest in R;
  injection R as R1 R2 R3 R4 R5 R6 R7 R8 R9 R10 R11 R12 R13 R14 R15 R16.

Example c43_nonvacuous :
  exists s0 h s s' ev, made wenv true s0 /\ history wenv s0 h s /\ exec wenv CEvolve s = (Done, s', ev) /\
    calls_of h = [CInit3 2 2 3 v0 BFlavor; CTrack (Some fwd); CBody (Some earth)].
Proof.
  destruct (ready_exists wenv [1; 2] 3 false None earth fwd v0) as (s0 & h & s & Mk & H & R & C & _);
    [lia|cbn; lia|discriminate|].
  open_ready R.
  destruct (evolve_state_ok wenv s earth fwd 0) as (s' & ev & E); try assumption.
  - unfold has_all. rewrite R14, R15, R16, FS. reflexivity.
  - rewrite R7. reflexivity.
  - rewrite R7. reflexivity.
  - right. rewrite R7. reflexivity.
  - reflexivity.
  - exists s0, h, s, s', ev. auto.
Qed.

Example c43_refused :
  exists s0 s, made wenv true s0 /\
    history wenv s0 [(CTrack (Some fwd), Done, [], s); (CBody (Some earth), Done, [],
      put_f_body true (set_q_body (Some earth) s0))] s /\
    exec wenv CEvolve s = (Threw, s, []).
Proof.
  destruct (make_multi_ok wenv [1; 2] 3 Both false None) as (s0 & M0 & _); [lia|cbn; lia|discriminate|].
  exists s0. eexists. split; [eapply made_multi; exact M0|].
  pose proof (made_multi wenv [1; 2] 3 Both false None s0 [] M0) as Mk.
  assert (H : forall s, exec wenv (CTrack (Some fwd)) (put_f_body true (set_q_body (Some earth) s0)) = (Done, s, []) ->
    history wenv s0 [(CTrack (Some fwd), Done, [], s); (CBody (Some earth), Done, [],
      put_f_body true (set_q_body (Some earth) s0))] s).
  { intros s E. apply h_call with (put_f_body true (set_q_body (Some earth) s0)); [|exact E|discriminate].
    apply h_call with s0; [apply h_nil|reflexivity|discriminate]. }
  split; [apply H; reflexivity|].
  destruct (c43_setup_needed wenv true s0 _ _ Mk (H _ eq_refl)) as [X|(_ & _ & _ & V)]; [exact X|].
  exfalso. inversion V as [|? ? ? ? ? V1 _]; subst; [discriminate|]. inversion V1 as [|? ? ? ? ? V2 _]; subst; [discriminate|].
  inversion V2.
Qed.

(** ** C44: changed parameters invalidate the state *)

(** After a change of energy or mixing parameters, and whatever else is called
    except setting a state successfully, evolving is refused. *)
Theorem c44_invalidated e k s0 h s h1 h2 c ev s1 : made e k s0 -> history e s0 h s ->
  h = h2 ++ (c, Done, ev, s1) :: h1 -> is_param c = true ->
  (forall en, In en h2 -> is_init (fst (fst (fst en))) = true -> snd (fst (fst en)) <> Done) ->
  exec e CEvolve s = (Threw, s, []).
Proof.
  intros Mk H -> P N. destruct (c43_setup_needed e k s0 _ s Mk H) as [X|(_ & _ & _ & V)]; [exact X|].
  exfalso. clear H. induction h2 as [|en h2 IH]; cbn [app] in V.
  - inversion V as [c' ev' s'' h' I'|c' r' ev' s'' h' V' O']; subst; [destruct c; discriminate|].
    destruct O'; congruence.
  - inversion V as [c' ev' s'' h' I'|c' r' ev' s'' h' V' O']; subst.
    + exact (N (c', Done, ev', s'') (or_introl eq_refl) I' eq_refl).
    + apply IH; [|exact V']. intros en' I. apply N. right. exact I.
Qed.

(** What a successful evolution uses was computed from the present parameters:
    the projectors (with flipped phases for antineutrinos) and the vacuum
    Hamiltonian. *)
Theorem c44_present_parameters e k s0 h s s' ev : made e k s0 -> history e s0 h s ->
  exec e CEvolve s = (Done, s', ev) ->
  (forall r f, (r < q_nrhos s)%nat -> (f < q_numneu s)%nat ->
     p_angle (q_proj s r f) = p_angle (q_pars s) /\
     forall a b, p_phase (q_proj s r f) a b
       = if is_anti (q_nt s) r && (Nat.ltb a b && Nat.ltb b (q_numneu s))
         then - p_phase (q_pars s) a b else p_phase (q_pars s) a b) /\
  (forall i, h_dm (q_h0 s) i = p_dm (q_pars s) i) /\ h_E (q_h0 s) = q_E s.
Proof.
  intros Mk H E. pose proof (history_agrees e k s0 h s Mk H) as A.
  destruct (c43_success_complete _ _ _ _ _ _ _ Mk H E) as (_ & _ & _ & V).
  apply (ag_state _ _ _ _ A) in V. destruct (ag_fresh _ _ _ _ A V) as (F1 & F2 & F3).
  split; [|split; assumption]. intros r f Hr Hf. destruct (F1 r f Hr Hf) as (B1 & _ & B3).
  split; [exact B1|exact B3].
Qed.

(** the change of a mixing angle makes an object that could be evolved refuse *)
Example c44_nonvacuous :
  exists s0 h s s1, made wenv true s0 /\ history wenv s0 h s /\ out_res (exec wenv CEvolve s) = Done /\
    exec wenv (CAngle 0 2 (1/10)) s = (Done, s1, []) /\
    exec wenv CEvolve s1 = (Threw, s1, []).
Proof.
  destruct c43_nonvacuous as (s0 & h & s & s' & ev & Mk & H & E & _).
  pose proof (ag_wf _ _ _ _ (history_agrees _ _ _ _ _ Mk H)) as W.
  exists s0, h, s. eexists. split; [exact Mk|]. split; [exact H|]. split; [rewrite E; reflexivity|].
  assert (X : exec wenv (CAngle 0 2 (1/10)) s =
    (Done, put_f_state false (put_p_angle (upd2 (p_angle (q_pars s)) 0 2 (1/10)) s), [])).
  { cbn [exec]. pose proof (wf_min _ _ W). apply (angle_ok wenv); cbn; lia. }
  split; [exact X|].
  eapply (c44_invalidated wenv true s0 ((CAngle 0 2 (1/10), Done, [], _) :: h) _ h [] (CAngle 0 2 (1/10)) [] _ Mk).
  - eapply h_call; [exact H|exact X|discriminate].
  - reflexivity.
  - reflexivity.
  - intros en [].
Qed.

(** ** C50: the flip of CP phases is undone *)

Theorem c50_phases_unchanged e k s0 h s c r s' ev : made e k s0 -> history e s0 h s ->
  is_init c = true -> exec e c s = (r, s', ev) ->
  p_angle (q_pars s') = p_angle (q_pars s) /\ p_dm (q_pars s') = p_dm (q_pars s) /\
  forall a b, p_phase (q_pars s') a b = p_phase (q_pars s) a b.
Proof.
  intros Mk H I E. pose proof (ag_wf _ _ _ _ (history_agrees _ _ _ _ _ Mk H)) as W.
  destruct (init_cases e c s W I) as [X|(t & s1 & T & X & S1 & _)]; rewrite X in E;
    injection E as <- <- <-; [auto|].
  split; [apply S1|]. split; [apply S1|apply S1].
Qed.

(** new objects have all CP phases zero, also for antineutrinos *)
Theorem c50_new_phases e k s0 : made e k s0 -> forall a b, p_phase (q_pars s0) a b = 0.
Proof. intro Mk. apply (nw_phase _ _ _ (made_spec e k s0 Mk)). Qed.

(** ** C51: index checks of the mixing setters *)

(** an index above the number of flavours is refused without effect *)
Theorem c51_beyond_partial e s i j v :
  ((q_numneu s < i)%nat \/ (q_numneu s < j)%nat ->
     exec e (CAngle i j v) s = (Threw, s, []) /\ exec e (CPhase i j v) s = (Threw, s, [])) /\
  ((q_numneu s < i)%nat -> exec e (CDm i v) s = (Threw, s, [])).
Proof.
  split.
  - intro H. cbn [exec]. unfold set_angle, set_phase, read.
    assert (X : Nat.ltb (q_numneu s) i || Nat.ltb (q_numneu s) j = true).
    { apply orb_true_iff. rewrite !Nat.ltb_lt. exact H. }
    rewrite X. split; reflexivity.
  - intro H. cbn [exec]. unfold set_dm, read. apply Nat.ltb_lt in H. rewrite H. reflexivity.
Qed.

(** indices out of order, or equal, and the mass difference of the first mass
    with itself are refused without effect as well *)
Theorem c51_order e s i j v :
  ((j <= i)%nat -> exec e (CAngle i j v) s = (Threw, s, []) /\ exec e (CPhase i j v) s = (Threw, s, [])) /\
  exec e (CDm 0 v) s = (Threw, s, []).
Proof.
  cbn [exec]. unfold set_angle, set_phase, set_dm, read, accepts, accepts1. split.
  - intro H. apply Nat.ltb_ge in H. rewrite H. cbn [andb]. destruct (Nat.ltb (q_numneu s) i || Nat.ltb (q_numneu s) j); split; reflexivity.
  - rewrite Nat.ltb_irrefl. cbn [andb]. destruct (Nat.ltb (q_numneu s) 0); reflexivity.
Qed.

(** but the number of flavours itself is accepted as index, whenever SQuIDS
    can handle more flavours: parameters that mean nothing are stored and the
    state is invalidated *)
Theorem c51_boundary_refuted e s i v : (i < q_numneu s)%nat -> (q_numneu s < e_maxdim e)%nat ->
  (exists s1, exec e (CAngle i (q_numneu s) v) s = (Done, s1, []) /\
     p_angle (q_pars s1) i (q_numneu s) = v /\ f_state (q_flags s1) = false) /\
  (exists s1, exec e (CPhase i (q_numneu s) v) s = (Done, s1, []) /\
     p_phase (q_pars s1) i (q_numneu s) = v /\ f_state (q_flags s1) = false) /\
  (exists s1, exec e (CDm (q_numneu s) v) s = (Done, s1, []) /\
     p_dm (q_pars s1) (q_numneu s) = v /\ f_state (q_flags s1) = false).
Proof.
  intros Hi Hm. cbn [exec]. unfold set_angle, set_phase, set_dm, read, accepts, accepts1, modify.
  replace (q_numneu s <? i)%nat with false by (symmetry; apply Nat.ltb_ge; lia).
  rewrite Nat.ltb_irrefl. cbn [orb].
  replace (i <? q_numneu s)%nat with true by (symmetry; apply Nat.ltb_lt; lia).
  replace (q_numneu s <? e_maxdim e)%nat with true by (symmetry; apply Nat.ltb_lt; lia).
  replace (0 <? q_numneu s)%nat with true by (symmetry; apply Nat.ltb_lt; lia).
  cbn [andb]. repeat split; eexists; (split; [reflexivity|]); cbn; unfold upd2, upd1;
    rewrite ?Nat.eqb_refl; cbn; auto.
Qed.

Example c51_nonvacuous : exists s, made wenv true s /\ q_numneu s = 3%nat /\ (3 < e_maxdim wenv)%nat.
Proof.
  destruct (make_multi_ok wenv [1; 2] 3 Both false None) as (s0 & M0 & R); [lia|cbn; lia|discriminate|].
  exists s0. split; [eapply made_multi; exact M0|]. split; [|cbn; lia].
  unfold rest in R. injection R as _ X _ _ _ _ _ _ _ _ _ _ _ _ _ _. exact X.
Qed.

Example c50_nonvacuous : exists s0 h s s1 s2, made wenv true s0 /\ history wenv s0 h s /\
  exec wenv (CPhase 0 2 5) s = (Done, s1, []) /\
  exec wenv (CInit3 2 2 3 v0 BFlavor) s1 = (Done, s2, []) /\
  p_phase (q_pars s2) 0%nat 2%nat = 5 /\ p_phase (q_proj s2 1%nat 0%nat) 0%nat 2%nat = -5.
Proof.
  destruct (ready_exists wenv [1; 2] 3 false None earth fwd v0) as (s0 & h & s & Mk & H & R & C & _);
    [lia|cbn; lia|discriminate|].
  open_ready R. exists s0, h, s.
  pose proof (set_phase_eq wenv 0 2 5 s) as P. specialize (P ltac:(lia)). rewrite R2 in P. specialize (P ltac:(lia) ltac:(cbn; lia)).
  set (s1 := put_f_state false _) in P. exists s1.
  destruct (init3_ok wenv s1 fwd v0 2 3) as (s2 & E2 & S2); try (cbn; lia); try assumption.
  exists s2. split; [exact Mk|]. split; [exact H|]. split; [exact P|]. split; [exact E2|].
  assert (X : p_phase (q_pars s2) 0%nat 2%nat = 5) by (rewrite (ss_phase _ _ _ _ S2); reflexivity).
  split; [exact X|]. destruct (ss_fresh _ _ _ _ S2) as (F & _).
  destruct (F 1%nat 0%nat) as (_ & _ & B).
  - rewrite (ss_nrhos _ _ _ _ S2). cbn. rewrite R4. lia.
  - rewrite (ss_numneu _ _ _ _ S2). cbn. rewrite R2. lia.
  - rewrite B. unfold signed, pair_in. rewrite (ss_nt _ _ _ _ S2), (ss_numneu _ _ _ _ S2).
    change (q_nt s1) with (q_nt s). change (q_numneu s1) with (q_numneu s). rewrite R1, R2. cbn [is_anti andb Nat.ltb Nat.leb].
    cbn. rewrite X. lra.
Qed.

(** ** C45: tau regeneration and Glashow resonance *)

(** Switched on after the interactions were initialised, tau regeneration
    makes the next evolution write past the end of its buffers. *)
Theorem c45_late_tau_refuted : exists s0 h s, made wenv true s0 /\ history wenv s0 h s /\ all_done h /\
  calls_of h = [CTau true; CInteractions; CInit3 2 2 3 v0 BFlavor; CTrack (Some fwd); CBody (Some earth)] /\
  out_res (exec wenv CEvolve s) = Undef OutOfBounds.
Proof.
  destruct (ready_exists wenv [1; 2] 3 true (Some lib1) earth fwd v0) as (s0 & h & s & Mk & H & R & C & D);
    [lia|cbn; lia|discriminate|].
  open_ready R.
  assert (E1 : exec wenv CInteractions s = (Done, put_i_done true (put_i_nc (r4 (q_ne s))
    (put_i_tabs (Some (Tabs TFull 2 1 false)) s)), [])).
  { cbn [exec]. rewrite (init_plain wenv s lib1); rewrite ?R7, ?R8; reflexivity. }
  set (s1 := put_i_done true _) in E1.
  assert (E2 : exec wenv (CTau true) s1 = (Done, put_o_tau true s1, [])).
  { cbn [exec]. unfold set_tau, read. change (q_nt s1) with (q_nt s). change (q_opts s1) with (q_opts s).
    change (q_numneu s1) with (q_numneu s). rewrite R1, R2, R7. reflexivity. }
  set (s2 := put_o_tau true s1) in E2.
  exists s0, ((CTau true, Done, [], s2) :: (CInteractions, Done, [], s1) :: h), s2.
  split; [exact Mk|]. split; [|split; [|split]].
  - apply h_call with s1; [|exact E2|discriminate]. apply h_call with s; [exact H|exact E1|discriminate].
  - repeat (constructor; [reflexivity|]). exact D.
  - unfold calls_of in *. cbn [map fst]. rewrite C. reflexivity.
  - apply (evolve_state_out wenv s2 earth fwd 0 (Tabs TFull 2 1 false)); try assumption; try reflexivity.
    + unfold has_all. change (q_flags s2) with (q_flags s). rewrite R14, R15, R16, FS. reflexivity.
    + cbn. rewrite R7. reflexivity.
    + cbn. rewrite R7. reflexivity.
    + cbn. rewrite R7. reflexivity.
    + cbn. rewrite R7. reflexivity.
    + cbn. rewrite R6. reflexivity.
    + right. unfold room. cbn. rewrite R7. cbn. rewrite R3, R8. cbn. intros (_ & X & _). specialize (X eq_refl). lia.
    + discriminate.
Qed.

(** The same for the Glashow resonance. *)
Theorem c45_late_glashow_refuted : exists s0 h s, made wenv true s0 /\ history wenv s0 h s /\ all_done h /\
  calls_of h = [CGlashow true; CInteractions; CInit3 2 2 3 v0 BFlavor; CTrack (Some fwd); CBody (Some earth)] /\
  out_res (exec wenv CEvolve s) = Undef OutOfBounds.
Proof.
  destruct (ready_exists wenv [1; 2] 3 true (Some lib1) earth fwd v0) as (s0 & h & s & Mk & H & R & C & D);
    [lia|cbn; lia|discriminate|].
  open_ready R.
  assert (E1 : exec wenv CInteractions s = (Done, put_i_done true (put_i_nc (r4 (q_ne s))
    (put_i_tabs (Some (Tabs TFull 2 1 false)) s)), [])).
  { cbn [exec]. rewrite (init_plain wenv s lib1); rewrite ?R7, ?R8; reflexivity. }
  set (s1 := put_i_done true _) in E1.
  assert (E2 : exec wenv (CGlashow true) s1 = (Done, put_o_gr true s1, [])).
  { cbn [exec]. unfold set_gr, read. change (q_opts s1) with (q_opts s). rewrite R7. reflexivity. }
  set (s2 := put_o_gr true s1) in E2.
  exists s0, ((CGlashow true, Done, [], s2) :: (CInteractions, Done, [], s1) :: h), s2.
  split; [exact Mk|]. split; [|split; [|split]].
  - apply h_call with s1; [|exact E2|discriminate]. apply h_call with s; [exact H|exact E1|discriminate].
  - repeat (constructor; [reflexivity|]). exact D.
  - unfold calls_of in *. cbn [map fst]. rewrite C. reflexivity.
  - apply (evolve_state_out wenv s2 earth fwd 0 (Tabs TFull 2 1 false)); try assumption; try reflexivity.
    + unfold has_all. change (q_flags s2) with (q_flags s). rewrite R14, R15, R16, FS. reflexivity.
    + cbn. rewrite R7. reflexivity.
    + cbn. rewrite R7. reflexivity.
    + cbn. rewrite R7. reflexivity.
    + cbn. rewrite R7. reflexivity.
    + cbn. rewrite R6. reflexivity.
    + right. unfold room, gr_on. cbn. rewrite R7, R1. cbn. rewrite R3, R8. cbn. intros (_ & _ & X). specialize (X eq_refl). lia.
    + discriminate.
Qed.

(** calls that use the tables, and calls that switch something on *)
Definition is_use (c : call) : bool := match c with CEvolve | CInteractions => true | _ => false end.
Definition switch_on (c : call) : bool :=
  match c with CTau true | CGlashow true => true | _ => false end.
Definition call_of (en : entry) : call := fst (fst (fst en)).

(** every switch was turned on before the first use *)
Fixpoint early (h : list entry) : Prop :=
  match h with
  | [] => True
  | en :: h => (switch_on (call_of en) = true -> forall en', In en' h -> is_use (call_of en') = false) /\ early h
  end.

Lemma fit_exec e c s : wf e s -> is_use c = false -> switch_on c = false -> (forall x, c = CXs x -> lib_ok x) ->
  tables_fit s -> tables_fit (out_obj (exec e c s)).
Proof.
  intros W U O X F. destruct (is_init c) eqn:I.
  { destruct (init_cases e c s W I) as [Y|(tr & s1 & _ & Y & S1 & _)]; rewrite Y; [exact F|].
    apply (fit_view s s1); [|exact F]. unfold tview.
    rewrite (ss_nt _ _ _ _ S1), (ss_ne _ _ _ _ S1), (ss_opts _ _ _ _ S1), (ss_ints _ _ _ _ S1). reflexivity. }
  destruct (is_param c) eqn:P.
  { destruct (param_cases e c s W P) as [Y|(s1 & Y & Fr & _)]; rewrite Y; [exact F|].
    apply (fit_view s s1); [|exact F]. rewrite Fr. reflexivity. }
  assert (K : stable (keeps tview) (exec e c) -> tables_fit (out_obj (exec e c s))).
  { intro K. apply (fit_view s); [apply K|exact F]. }
  destruct c; try discriminate I; try discriminate P; try discriminate U;
    try (apply K; cbn [exec]; unfold set_body, set_track, set_osc, set_pos, set_scale, set_const,
           set_basis, set_sources; stab_with (keeps_r _ tview) (keeps_t _ tview); fail).
  - apply K. cbn [exec]. unfold get_hamiltonian. stab_with (keeps_r _ tview) (keeps_t _ tview). apply view_x.
  - destruct b; [discriminate O|]. cbn [exec]. unfold set_tau, read. rewrite !andb_false_r. cbn.
    destruct F as [F1 F2 F3]. constructor; [exact F1|exact F2|]. intro D. destruct (F3 D) as (T & Z).
    split; [exact T|]. intro OI. destruct (Z OI) as (Z1 & _ & Z3). repeat split; auto. discriminate.
  - destruct b; [discriminate O|]. cbn [exec]. unfold set_gr, read. rewrite !andb_false_r. cbn.
    destruct F as [F1 F2 F3]. constructor; [exact F1| |].
    + intros t T. destruct (F2 t T) as (T1 & _). split; [exact T1|]. discriminate.
    + intro D. destruct (F3 D) as (T & Z).
      split; [exact T|]. intro OI. destruct (Z OI) as (Z1 & Z2 & _). repeat split; auto. discriminate.
  - cbn. destruct F as [F1 F2 F3]. constructor; [exact (X x eq_refl)|exact F2|discriminate].
Qed.

Lemma unused_exec e c s : wf e s -> is_use c = false ->
  tabs_of s = None /\ i_done (q_ints s) = false ->
  tabs_of (out_obj (exec e c s)) = None /\ i_done (q_ints (out_obj (exec e c s))) = false.
Proof.
  intros W U (T & D). destruct (is_init c) eqn:I.
  { destruct (init_cases e c s W I) as [Y|(tr & s1 & _ & Y & S1 & _)]; rewrite Y; [auto|].
    unfold tabs_of. cbn. rewrite (ss_ints _ _ _ _ S1). auto. }
  destruct (is_param c) eqn:P.
  { destruct (param_cases e c s W P) as [Y|(s1 & Y & Fr & _)]; rewrite Y; [auto|].
    unfold tabs_of. cbn. rewrite Fr. auto. }
  set (vw := fun s => (tabs_of s, i_done (q_ints s))).
  assert (K : stable (keeps vw) (exec e c) ->
    tabs_of (out_obj (exec e c s)) = None /\ i_done (q_ints (out_obj (exec e c s))) = false).
  { intro K. specialize (K s). unfold keeps, vw in K. injection K as K1 K2. split; congruence. }
  destruct c; try discriminate I; try discriminate P; try discriminate U;
    try (apply K; cbn [exec]; unfold set_body, set_track, set_osc, set_pos, set_scale, set_const, set_tau, set_gr,
           set_basis, set_sources; stab_with (keeps_r _ vw) (keeps_t _ vw); fail).
  - apply K. cbn [exec]. unfold get_hamiltonian. stab_with (keeps_r _ vw) (keeps_t _ vw).
    intro s1. pose proof (view_x (sq_t (q_sq s0)) s1) as V. unfold keeps, tview in V.
    injection V as _ _ _ _ _ _ V7 V8 _ _ _. unfold keeps, vw, tabs_of. congruence.
  - cbn. auto.
Qed.

(** If all libraries offered are complete and every switch was turned on before
    the first use of interactions, no evolution writes out of bounds, and the
    tables it uses are filled, those of the resonance too if it is on. *)
Theorem c45_early_switches_partial e k s0 h s : made e k s0 -> history e s0 h s ->
  lib_ok (i_ncs (q_ints s0)) -> lib_ok (e_default e) -> e_default e <> None ->
  (forall x ev s1 r, In (CXs x, r, ev, s1) h -> lib_ok x) -> early h ->
  out_res (exec e CEvolve s) <> Undef OutOfBounds /\
  forall t, In (EvTables t) (out_evs (exec e CEvolve s)) ->
    tb_fill t = TFull /\ (o_gr (q_opts s) = true -> q_nt s = NuBar \/ q_nt s = Both -> tb_gr t = true).
Proof.
  intros Mk H L0 LD ND LX ER.
  assert (A : tables_fit s /\ ((forall en, In en h -> is_use (call_of en) = false) ->
     tabs_of s = None /\ i_done (q_ints s) = false)).
  { induction H as [|h s c r s' ev H IH E U].
    - pose proof (made_spec e k s0 Mk) as N. split.
      + constructor; [exact L0| |].
        * intros t T. rewrite (nw_tabs _ _ _ N) in T. discriminate T.
        * rewrite (nw_done _ _ _ N). discriminate.
      + intros _. split; [exact (nw_tabs _ _ _ N)|exact (nw_done _ _ _ N)].
    - destruct ER as (ER1 & ER2). destruct IH as (F & UN); [|exact ER2|].
      { intros x ev0 s1 r0 X. apply (LX x ev0 s1 r0). right. exact X. }
      pose proof (ag_wf _ _ _ _ (history_agrees _ _ _ _ _ Mk H)) as W.
      assert (OB : s' = out_obj (exec e c s)) by (rewrite E; reflexivity).
      destruct (is_use c) eqn:US.
      + split; [|intro X; specialize (X (c, r, ev, s') (or_introl eq_refl)); cbn in X; congruence].
        rewrite OB. destruct c; try discriminate US; cbn [exec].
        * apply (evolve_state_fit e s F LD ND).
        * destruct (init_fit e s F LD ND) as [(Y & _)|(s1 & Y & F1 & _)]; rewrite Y; [exact F|exact F1].
      + split.
        * destruct (switch_on c) eqn:SW.
          -- assert (NU : tabs_of s = None /\ i_done (q_ints s) = false) by (apply UN, ER1; exact SW).
             destruct (unused_exec e c s W US NU) as (T1 & D1). rewrite <- OB in T1, D1.
             constructor.
             ++ assert (NC : i_ncs (q_ints s') = i_ncs (q_ints s)).
                { rewrite OB. clear - SW. destruct c as [ | | | | | | | | | | | | |[]|[]| | | | | | | ]; try discriminate SW; cbn [exec];
                    unfold set_tau, set_gr, read, throw, modify; repeat match goal with |- context [if ?b then _ else _] => destruct b end; reflexivity. }
                rewrite NC. apply F.
             ++ intros t T. unfold tabs_of in T1. congruence.
             ++ congruence.
          -- rewrite OB. apply fit_exec; try assumption. intros x ->. apply (LX x ev s' r). left. reflexivity.
        * intro X. rewrite OB. apply unused_exec; [exact W|exact US|]. apply UN.
          intros en I. apply X. right. exact I. }
  destruct A as (F & _). cbn [exec].
  destruct (evolve_state_fit e s F LD ND) as (S1 & _ & T1). split; [exact S1|].
  intros t I. destruct (T1 t I) as (_ & T2 & T3). split; [exact T2|]. intros On K. apply T3. unfold gr_on. rewrite On. destruct K as [-> | ->]; reflexivity.
Qed.

(** Turning sources on makes room for their flux at every node, so that looking
    at the medium goes well if it did before; turning them on or off changes
    nothing else. *)
Theorem c45_sources e b s : exists s', exec e (CSources b) s = (Done, s', []) /\ o_src (q_opts s') = b /\
  (b = true -> i_flux (q_ints s') = q_ne s) /\ (b = false -> i_flux (q_ints s') = i_flux (q_ints s)) /\
  put_o_src (o_src (q_opts s)) (put_i_flux (i_flux (q_ints s)) s') = s /\
  forall x, looks_ok s -> out_res (pre_derive x s') = Done.
Proof.
  eexists. split; [reflexivity|]. split; [destruct b; reflexivity|]. split; [intros ->; reflexivity|]. split; [intros ->; reflexivity|]. split.
  - destruct s as [? ? ? ? ? ? ? op it]. destruct b, op, it; reflexivity.
  - intros x (T & O & B & K & N). apply pre_derive_ok. destruct b.
    + repeat split; try assumption; try reflexivity.
    + repeat split; try assumption; discriminate.
Qed.

Example c45_nonvacuous : exists s0 h s s' ev tb, made wenv true s0 /\ history wenv s0 h s /\ early h /\
  calls_of h = [CGlashow true; CTau true; CInit3 2 2 3 v0 BFlavor; CTrack (Some fwd); CBody (Some earth)] /\
  lib_ok (i_ncs (q_ints s0)) /\ exec wenv CEvolve s = (Done, s', ev) /\ In (EvTables tb) ev /\
  gr_on s = true /\ o_tau (q_opts s) = true.
Proof.
  destruct (ready_exists_lib wenv [1; 2] 3 true None earth fwd v0) as (s0 & h & s & Mk & H & R & C & D & N0);
    [lia|cbn; lia|discriminate|].
  open_ready R.
  set (s1 := put_o_tau true s). set (s2 := put_o_gr true s1).
  assert (E1 : exec wenv (CTau true) s = (Done, s1, [])).
  { cbn [exec]. unfold set_tau, read. rewrite R1, R2, R7. reflexivity. }
  assert (E2 : exec wenv (CGlashow true) s1 = (Done, s2, [])).
  { cbn [exec]. unfold set_gr, read. cbn. rewrite R7. reflexivity. }
  assert (F : tables_fit s2).
  { constructor; cbn; rewrite R8; cbn; discriminate. }
  destruct (evolve_state_ok_int wenv s2 earth fwd F) as (s' & ev & tb & E & I); try reflexivity; try discriminate.
  - intros x X. injection X as <-. reflexivity.
  - exact R9.
  - exact R10.
  - change (q_offset s2) with (q_offset s). rewrite R12. discriminate.
  - unfold has_all. change (q_flags s2) with (q_flags s). rewrite R14, R15, R16, FS. reflexivity.
  - cbn. rewrite R7. reflexivity.
  - cbn. rewrite R7. reflexivity.
  - cbn. rewrite R7. reflexivity.
  - cbn. rewrite R6. reflexivity.
  - exists s0, ((CGlashow true, Done, [], s2) :: (CTau true, Done, [], s1) :: h), s2, s', ev, tb.
    split; [exact Mk|]. split; [|split; [|split; [|split; [|split; [exact E|split; [exact I|split]]]]]].
    + apply h_call with s1; [|exact E2|discriminate]. apply h_call with s; [exact H|exact E1|discriminate].
    + unfold calls_of in C. destruct h as [|a1 [|a2 [|a3 [|]]]]; try discriminate C.
      injection C as C1 C2 C3. cbn. unfold call_of. rewrite C1, C2, C3. cbn.
      repeat split; try discriminate;
        intros _ en X; repeat destruct X as [<-|X]; try tauto; cbn; rewrite ?C1, ?C2, ?C3; reflexivity.
    + unfold calls_of in *. cbn [map fst]. rewrite C. reflexivity.
    + rewrite N0. intros x X. discriminate X.
    + unfold gr_on. cbn. rewrite R1. reflexivity.
    + reflexivity.
Qed.

(** ** C46: which library is used *)

(** Tables are never made anew: whatever is called afterwards, libraries
    supplied included, every evolution uses the tables made first. *)
Theorem c46_tables_stay_refuted e k s00 h0 s0 t h s : made e k s00 -> history e s00 h0 s0 ->
  i_tabs (q_ints s0) = Some t -> history e s0 h s ->
  i_tabs (q_ints s) = Some t /\
  forall c r ev s1 t', In (c, r, ev, s1) h -> In (EvTables t') ev -> t' = t.
Proof.
  intros Mk H0 T H.
  assert (A : wf e s /\ tabs_of s = Some t /\ forall c r ev s1 t', In (c, r, ev, s1) h -> In (EvTables t') ev -> t' = t).
  { induction H as [|h s c r s' ev H IH E U].
    - split; [exact (ag_wf _ _ _ _ (history_agrees _ _ _ _ _ Mk H0))|]. split; [exact T|]. intros ? ? ? ? ? [].
    - destruct IH as (W & T1 & IH). pose proof (exec_keeps_tabs e c s t W T1) as T2. rewrite E in T2. cbn in T2.
      split; [exact (wf_exec e _ _ _ _ _ W E)|]. split; [exact T2|].
      intros c1 r1 ev1 s1 t' [X|X] I; [|eapply IH; eassumption]. injection X as <- <- <- <-.
      destruct (is_init c) eqn:Ic.
      { destruct (init_cases e c s W Ic) as [Y|(tr & s2 & _ & Y & _)]; rewrite Y in E; injection E as <- <- <-; destruct I. }
      destruct (is_param c) eqn:Pc.
      { destruct (param_cases e c s W Pc) as [Y|(s2 & Y & _)]; rewrite Y in E; injection E as <- <- <-; destruct I. }
      assert (EV : ev = out_evs (exec e c s)) by (rewrite E; reflexivity).
      destruct c; try discriminate Ic; try discriminate Pc;
        try (exfalso; rewrite EV in I; cbn [exec] in I;
             unfold set_body, set_track, set_tau, set_gr, set_osc, set_pos, set_scale, set_const, set_basis, set_xs,
               set_sources, read, modify, throw, undef in I;
             repeat match goal with H : In _ (out_evs (_ _)) |- _ => cbn in H end;
             repeat match type of I with context [match ?b with _ => _ end] => destruct b; cbn in I end;
             cbn in I; tauto).
      + cbn [exec] in E. destruct (evolve_state_tables e s) as [(b & tr & _ & _ & _ & _ & TB)|Y]; [|rewrite Y in E; injection E as <- <- <-; destruct I].
        rewrite E in TB. cbn in TB. specialize (TB _ I). congruence.
      + rewrite EV in I. cbn [exec] in I. unfold get_hamiltonian, read in I.
        destruct (negb _); [destruct I|]. apply pre_derive_tables in I. congruence.
      + rewrite EV in I. cbn [exec] in I. destruct (init_events e s) as (Q & _). rewrite Q in I. destruct I. }
  destruct A as (_ & A1 & A2). split; [exact A1|exact A2].
Qed.

(** a case: a second library is supplied after the first use, and the next
    evolution still uses the first *)
Theorem c46_new_library_refuted : exists s0 h s s' ev tb, made wenv true s0 /\ history wenv s0 h s /\ all_done h /\
  calls_of h = [CXs (Some lib2); CInteractions; CInit3 2 2 3 v0 BFlavor; CTrack (Some fwd); CBody (Some earth)] /\
  exec wenv CEvolve s = (Done, s', ev) /\ In (EvTables tb) ev /\ tb_xs tb = x_name lib1 /\ x_name lib1 <> x_name lib2.
Proof.
  destruct (ready_exists wenv [1; 2] 3 true (Some lib1) earth fwd v0) as (s0 & h & s & Mk & H & R & C & D);
    [lia|cbn; lia|discriminate|].
  open_ready R.
  assert (E1 : exec wenv CInteractions s = (Done, put_i_done true (put_i_nc (r4 (q_ne s))
    (put_i_tabs (Some (Tabs TFull 2 1 false)) s)), [])).
  { cbn [exec]. rewrite (init_plain wenv s lib1); rewrite ?R7, ?R8; reflexivity. }
  set (s1 := put_i_done true _) in E1. set (s2 := put_i_done false (put_i_ncs (Some lib2) s1)).
  assert (H2 : history wenv s0 ((CXs (Some lib2), Done, [], s2) :: (CInteractions, Done, [], s1) :: h) s2).
  { apply h_call with s1; [|reflexivity|discriminate]. apply h_call with s; [exact H|exact E1|discriminate]. }
  assert (F : tables_fit s2).
  { constructor; cbn.
    - intros x X. injection X as <-. reflexivity.
    - intros t X. injection X as <-. split; [reflexivity|]. unfold gr_on. cbn. rewrite R7. discriminate.
    - discriminate. }
  destruct (evolve_state_ok_int wenv s2 earth fwd F) as (s' & ev & tb & E & I); try reflexivity; try discriminate.
  - intros x X. injection X as <-. reflexivity.
  - exact R9.
  - exact R10.
  - change (q_offset s2) with (q_offset s). rewrite R12. discriminate.
  - unfold has_all. change (q_flags s2) with (q_flags s). rewrite R14, R15, R16, FS. reflexivity.
  - cbn. rewrite R7. reflexivity.
  - cbn. rewrite R7. reflexivity.
  - cbn. rewrite R7. reflexivity.
  - cbn. rewrite R6. reflexivity.
  - exists s0, ((CXs (Some lib2), Done, [], s2) :: (CInteractions, Done, [], s1) :: h), s2, s', ev, tb.
    split; [exact Mk|]. split; [exact H2|]. split; [|split; [|split; [exact E|split; [exact I|split; [|discriminate]]]]].
    + repeat (constructor; [reflexivity|]). exact D.
    + unfold calls_of in *. cbn [map fst]. rewrite C. reflexivity.
    + destruct (c46_tables_stay_refuted wenv true s0 _ s2 (Tabs TFull 2 1 false) [(CEvolve, Done, ev, s')] s' Mk H2) as (_ & X).
      * reflexivity.
      * apply h_call with s2; [apply h_nil|exact E|discriminate].
      * rewrite (X CEvolve Done ev s' tb); [reflexivity|left; reflexivity|exact I].
Qed.

(** Before the first use of interactions the library supplied last is the one
    that is used. *)
Theorem c46_first_use_partial e k s0 h s x s1 s' ev : made e k s0 -> history e s0 h s ->
  (forall en, In en h -> is_use (call_of en) = false) ->
  exec e (CXs (Some x)) s = (Done, s1, []) -> exec e CEvolve s1 = (Done, s', ev) ->
  forall t, In (EvTables t) ev -> tb_xs t = x_name x.
Proof.
  intros Mk H N E1 E2 t I.
  assert (A : tabs_of s = None /\ i_done (q_ints s) = false).
  { clear E1 E2. induction H as [|h s c r s2 ev2 H IH E U].
    - pose proof (made_spec e k s0 Mk) as Q. split; [exact (nw_tabs _ _ _ Q)|exact (nw_done _ _ _ Q)].
    - pose proof (ag_wf _ _ _ _ (history_agrees _ _ _ _ _ Mk H)) as W.
      destruct (unused_exec e c s W) as (X & Y).
      + exact (N (c, r, ev2, s2) (or_introl eq_refl)).
      + apply IH. intros en J. apply N. right. exact J.
      + rewrite E in X, Y. auto. }
  destruct A as (T & D). cbn [exec] in E1. injection E1 as <-. set (s1 := put_i_done false _) in *.
  cbn [exec] in E2. destruct (evolve_state_tables e s1) as [(b & tr & B & TR & X & _ & TB)|Y]; [|rewrite Y in E2; discriminate E2].
  rewrite E2 in X, TB. cbn in X, TB. specialize (TB t I).
  assert (FI : tb_fill t <> TEmpty).
  { pose proof (evolve_state_filled e s1) as Q. rewrite E2, Forall_forall in Q. exact (Q _ I). }
  rewrite X, prep_tabs in TB. change (i_done (q_ints s1)) with false in TB. cbn [negb] in TB. rewrite andb_true_r in TB.
  destruct (o_int (q_opts s1)).
  - apply (init_first e s1 x t); [exact T|reflexivity|exact TB|]. destruct (tb_fill t); [congruence|auto|auto].
  - unfold tabs_of in *. cbn in TB. congruence.
Qed.

Example c46_nonvacuous : exists s0 h s s1 s' ev tb, made wenv true s0 /\ history wenv s0 h s /\
  (forall en, In en h -> is_use (call_of en) = false) /\ i_ncs (q_ints s) = Some lib1 /\
  exec wenv (CXs (Some lib2)) s = (Done, s1, []) /\ exec wenv CEvolve s1 = (Done, s', ev) /\
  In (EvTables tb) ev /\ tb_xs tb = 2%nat.
Proof.
  destruct (ready_exists wenv [1; 2] 3 true (Some lib1) earth fwd v0) as (s0 & h & s & Mk & H & R & C & D);
    [lia|cbn; lia|discriminate|].
  open_ready R.
  set (s1 := put_i_done false (put_i_ncs (Some lib2) s)).
  assert (N : forall en, In en h -> is_use (call_of en) = false).
  { destruct h as [|a1 [|a2 [|a3 [|]]]]; try discriminate C. injection C as C1 C2 C3.
    intros en Y. unfold call_of. repeat destruct Y as [<-|Y]; rewrite ?C1, ?C2, ?C3; try reflexivity. destruct Y. }
  assert (F : tables_fit s1).
  { constructor; cbn.
    - intros x X. injection X as <-. reflexivity.
    - rewrite R8. discriminate.
    - discriminate. }
  destruct (evolve_state_ok_int wenv s1 earth fwd F) as (s' & ev & tb & E & I); try reflexivity; try discriminate.
  - intros x X. injection X as <-. reflexivity.
  - exact R9.
  - exact R10.
  - change (q_offset s1) with (q_offset s). rewrite R12. discriminate.
  - unfold has_all. change (q_flags s1) with (q_flags s). rewrite R14, R15, R16, FS. reflexivity.
  - cbn. rewrite R7. reflexivity.
  - cbn. rewrite R7. reflexivity.
  - cbn. rewrite R7. reflexivity.
  - cbn. rewrite R6. reflexivity.
  - exists s0, h, s, s1, s', ev, tb. split; [exact Mk|]. split; [exact H|]. split; [exact N|].
    split; [rewrite R8; reflexivity|]. split; [reflexivity|]. split; [exact E|]. split; [exact I|].
    apply (c46_first_use_partial wenv true s0 h s lib2 s1 s' ev Mk H N eq_refl E tb I).
Qed.

Print Assumptions c43_setup_needed.
Print Assumptions c44_invalidated.
Print Assumptions c44_present_parameters.
Print Assumptions c50_phases_unchanged.
Print Assumptions c50_new_phases.
Print Assumptions c51_beyond_partial.
Print Assumptions c51_order.
Print Assumptions c51_boundary_refuted.
Print Assumptions c45_late_tau_refuted.
Print Assumptions c45_late_glashow_refuted.
Print Assumptions c45_early_switches_partial.
Print Assumptions c45_sources.
Print Assumptions c46_tables_stay_refuted.
Print Assumptions c46_new_library_refuted.
Print Assumptions c46_first_use_partial.
