(** C94: what is read after any life of an object is what the equation says. *)
From Coq Require Import Reals List Arith Bool Lia Lra.
From Verif Require Import IntModel XsModel StateModel StateProofs StateHistory StateLaws StateReady StateFrames.
From Verif Require Import CMatrix FlavorModel FlavorProofs FlavorProps FlavorEqn FlavorEqnProps AvgProofs SuperProofs PosProofs PosProps TransProofs TransProps EndModel.
Import ListNotations.
Local Open Scope R_scope.

(** ** What should be read

    One node of one type: the parameters chosen, the energy, the medium along each leg. *)
Record settings := Settings {
  st_n : nat; st_th : nat -> nat -> R; st_dl : nat -> nat -> R; st_dm : nat -> R; st_nt : nt; st_r : nat; st_E : R }.
(** a leg: body, clock at position zero, length *)
Record leg := Leg { l_body : body; l_shift : R; l_len : R }.

(** the potentials of charged and neutral current: opposite for antineutrinos, the electrons and the neutrons of the
    medium; without electrons the code takes the whole density in place of minus its half (the finding of C42) *)
Definition sign (t : nt) (r : nat) : R :=
  match t with Nu => 1 | NuBar => -1 | IntModel.Both => match r with 1%nat => -1 | _ => 1 end end.
Definition charged (k : consts) (t : nt) (r : nat) (rho ye : R) : R := sign t r * (k_HI k * rho * ye).
Definition neutral (k : consts) (t : nt) (r : nat) (rho ye : R) : R :=
  sign t r * (k_HI k * rho * (if Rlt_dec ye (1 / 10 ^ 10) then 1 else - (1 - ye) / 2)).

Section Spec.
Variable order : list (nat * nat).
Variable m : media.
Definition leg_world (q : settings) (l : leg) : world :=
  World (st_n q) (st_th q) (st_dl q) order (type_of (st_nt q)) (st_r q) true (st_dm q) (st_E q)
    (fun x => charged (m_k m) (st_nt q) (st_r q) (m_rho m (l_body l) (x - l_shift l)) (m_ye m (l_body l) (x - l_shift l)))
    (fun x => neutral (m_k m) (st_nt q) (st_r q) (m_rho m (l_body l) (x - l_shift l)) (m_ye m (l_body l) (x - l_shift l))).
Definition flavour (q : settings) : nat -> mat := b1_proj (st_n q) (st_th q) (st_dl q) order (type_of (st_nt q)) (st_r q).

(** The density matrix goes from [A] to [B] along the legs, from clock [t] on:
    d/dx A = -i [H_vacuum + V(x), A] on each. *)
Inductive way (q : settings) : R -> list leg -> mat -> mat -> Prop :=
| way_nil t A B : meq (st_n q) A B -> way q t [] A B
| way_leg t l ls A B (sol : R -> mat) : 0 <= l_len l -> meq (st_n q) (sol t) A ->
    (forall x, t <= x <= t + l_len l -> mderiv (st_n q) sol x (coherent (st_n q) (full (leg_world q l) x) (sol x))) ->
    way q (t + l_len l) ls (sol (t + l_len l)) B -> way q t (l :: ls) A B.

(** the flavour or mass contents at the end, [v] having been put in basis [b] at clock [t0] *)
Definition answer (q : settings) (t0 : R) (b : basis) (v : nat -> R) (ls : list leg) (k : nat) (p : R) : Prop := exists B,
  way q t0 ls (ini_state (st_n q) b (flavour q) v) B /\ p = expect (st_n q) (flavour q k) B.
Definition mass_answer (q : settings) (t0 : R) (b : basis) (v : nat -> R) (ls : list leg) (k : nat) (p : R) : Prop := exists B,
  way q t0 ls (ini_state (st_n q) b (flavour q) v) B /\ p = expect (st_n q) (b0_proj k) B.
End Spec.

(** ** The journey told by the calls *)
Definition given (c : call) : StateModel.basis * (nat -> nat -> nat -> R) :=
  match c with
  | CInit1 _ v b => (b, fun _ _ j => v j) | CInit2 _ _ v b => (b, fun i _ j => v i j) | CInit3 _ _ _ v b => (b, v)
  | _ => (StateModel.BInter, fun _ _ _ => 0) end.

(** calls that do not touch state, parameters, or basis *)
Definition harmless (c : call) : bool :=
  match c with
  | CBody _ | CTrack _ | CHamiltonian | CInteractions | CTau _ | CGlashow _ | COsc _ | CPos _ | CScale _ | CConst _ | CXs _ | CSources _ => true
  | _ => false end.

(** the journey since the last state was set: start of the clock, what was put in, legs *)
Inductive travelled : list entry -> R -> StateModel.basis -> (nat -> nat -> nat -> R) -> list leg -> Prop :=
| tv_init c ev s h t b v : is_init c = true -> given c = (b, v) -> last_track h = Some t ->
    travelled ((c, Done, ev, s) :: h) (tr_ini t) b v []
| tv_evolve ev s h t0 b v ls bd t c1 : travelled h t0 b v ls -> last_body h = Some (Some bd) -> anchor h = Some (t, c1) ->
    tr_ini t <= tr_fin t ->
    travelled ((CEvolve, Done, ev, s) :: h) t0 b v (ls ++ [Leg bd (c1 - tr_ini t) (tr_fin t - tr_ini t)])
| tv_other c r ev s h t0 b v ls : travelled h t0 b v ls -> harmless c = true \/ (is_init c = true /\ r = Threw) ->
    travelled ((c, r, ev, s) :: h) t0 b v ls.

(** neither shortcut, positivity, sources nor no-oscillation mode were ever asked for *)
Definition ordinary (h : list entry) : Prop := forall en, In en h ->
  match fst (fst (fst en)) with CConst true | CPos true | CSources true | COsc false => False | _ => True end.

(** the settings of an object *)
Definition settings_of (s : nus) (ie r : nat) : settings :=
  Settings (q_numneu s) (p_angle (q_pars s)) (p_phase (q_pars s)) (p_dm (q_pars s)) (q_nt s) r (nth ie (q_E s) 0).

(** ** Proof: the potentials *)
Lemma is_anti_sign t r : sign t r = if is_anti t r then -1 else 1.
Proof. destruct t; try reflexivity. destruct r as [|[|r]]; reflexivity. Qed.
Lemma cc_charged m t r b p : cc_at m t r b p = charged (m_k m) t r (m_rho m b p) (m_ye m b p).
Proof. unfold cc_at, hi_coeffs, charged. rewrite is_anti_sign. destruct (is_anti t r); cbn [fst]; ring. Qed.
Lemma nc_neutral m t r b p : nc_at m t r b p = neutral (m_k m) t r (m_rho m b p) (m_ye m b p).
Proof.
  unfold nc_at, hi_coeffs, neutral, rlt. rewrite is_anti_sign. destruct (Rlt_dec _ _) as [X|X].
  - destruct (is_anti t r); cbn [snd]; ring.
  - assert (m_ye m b p <> 0) by (intro Z; apply X; rewrite Z; apply Rdiv_lt_0_compat; [lra|apply pow_lt; lra]).
    destruct (is_anti t r); cbn [snd]; field; assumption.
Qed.

(** ** Proof: the switches *)
Section Proof.
Variable e : env.

Lemma ordinary_switches k s0 h s : made e k s0 -> history e s0 h s -> e_ini_num e true = true -> o_int (q_opts s0) = false -> ordinary h ->
  (o_int (q_opts s) = false /\ o_osc (q_opts s) = true /\ o_pos (q_opts s) = false /\ o_const (q_opts s) = false /\ o_src (q_opts s) = false) /\ sq_num (q_sq s) = true.
Proof.
  intros Mk H IN OI N. induction H as [|h s c r1 s1 ev1 H IH E U].
  - pose proof (made_spec e k s0 Mk) as X. destruct (nw_opts _ _ _ X) as (i & sc & O). rewrite O in OI |- *. cbn in OI |- *.
    split; [tauto|exact (nw_num _ _ _ X)].
  - destruct IH as (Z1 & Z2); [intros en X; apply N; right; exact X|].
    pose proof (history_agrees e k s0 h s Mk H) as A. pose proof (ag_wf _ _ _ _ A) as W.
    assert (OB : s1 = out_obj (exec e c s)) by (rewrite E; reflexivity). rewrite OB.
    destruct (is_evolve c) eqn:V.
    { destruct c; try discriminate V. destruct (num_evolve e s) as (X1 & X2); [tauto|]. rewrite X1, X2. tauto. }
    split.
    + destruct (is_opt c) eqn:O; [|rewrite opts_frame by assumption; exact Z1].
      pose proof (N _ (or_introl eq_refl)) as NC. cbn in NC.
      destruct c; try discriminate O; cbn [exec];
        unfold set_tau, set_gr, set_osc, set_pos, set_const, set_scale, set_basis, set_sources, read, modify, throw;
        repeat match goal with |- context [if ?b then _ else _] => destruct b eqn:? end; cbn; try tauto;
        repeat match goal with x : bool |- _ => destruct x end; tauto.
    + destruct (is_init c) eqn:J.
      * destruct (init_cases e c s W J) as [X|(t1 & s2 & _ & X & S2 & _)]; rewrite X; [exact Z2|].
        cbn. rewrite (ss_num _ _ _ _ S2), Z2. exact IN.
      * rewrite sq_frame by assumption. exact Z2.
Qed.

(** what Set_initial_state leaves in the state *)
Lemma fill_last v b s s' ev : fill_state e v b s = (Done, s', ev) ->
  exists s3, s' = put_f_state true (put_sq_state (e_mk e s3 v b) s3).
Proof.
  unfold fill_state, read. destruct (q_track s) as [t|]; [|discriminate].
  rewrite !seq_eq. unfold modify at 1. rewrite seq_eq. unfold modify at 1. rewrite seq_eq. unfold modify at 1.
  rewrite seq_eq. destruct (set_projectors e _) as [[r s1] e1]. destruct r; try discriminate.
  rewrite seq_eq. unfold ini_h0, modify at 1. rewrite seq_eq. unfold modify.
  intro E. injection E as <- _. eexists. reflexivity.
Qed.
Lemma init_last c s s' ev : is_init c = true -> exec e c s = (Done, s', ev) ->
  exists s3, s' = put_f_state true (put_sq_state (e_mk e s3 (snd (given c)) (fst (given c))) s3).
Proof.
  intros I E. destruct c; try discriminate I; cbn [exec given fst snd] in *;
    unfold init_state1, init_state2, init_state3, read in E; rewrite checks_eq in E;
    (destruct (existsb _ _); [discriminate E|]); exact (fill_last _ _ _ _ _ E).
Qed.

(** ** What is stored belongs to the settings *)
Variable order : list (nat * nat).
Variable m : media.

Lemma mix_ext n th dl th' dl' l : Forall (fun p => (fst p < snd p < n)%nat) l ->
  (forall i j, (i < j < n)%nat -> th i j = th' i j /\ dl i j = dl' i j) -> mixing n th dl l = mixing n th' dl' l.
Proof.
  intros F H. induction F as [|[i j] l Hp F IH]; [reflexivity|]. cbn [fst snd] in Hp. cbn [mixing].
  destruct (H i j Hp) as [-> ->]. rewrite IH. reflexivity.
Qed.

Lemma stored_flavour s ie r f : fresh s -> (r < q_nrhos s)%nat -> (f < q_numneu s)%nat ->
  Forall (fun p => (fst p < snd p < q_numneu s)%nat) order ->
  stored_P order s r f = flavour order (settings_of s ie r) f.
Proof.
  intros (Fr & _) Hr Hf O. destruct (Fr r f Hr Hf) as (B1 & _ & B3). unfold stored_P, flavour, b1_proj. cbn.
  f_equal. apply mix_ext; [exact O|]. intros i j Hij. split; [rewrite B1; reflexivity|]. rewrite B3.
  unfold signed, pair_in. replace (Nat.ltb i j) with true by (symmetry; apply Nat.ltb_lt; lia).
  replace (Nat.ltb j (q_numneu s)) with true by (symmetry; apply Nat.ltb_lt; lia). cbn [andb]. rewrite andb_true_r.
  destruct (q_nt s); unfold is_anti; cbn [nt_eqb andb orb type_of fixed_phases]; [reflexivity|reflexivity|]. destruct (Nat.eqb r 1); reflexivity.
Qed.

Lemma stored_vacuum s ie r l : fresh s -> h_osc (q_h0 s) = true -> stored_H s ie = w_H (leg_world order m (settings_of s ie r) l).
Proof.
  intros (_ & D & HE) O. unfold stored_H, w_H. cbn [leg_world settings_of w_n w_osc w_ediff w_E st_n st_dm st_E]. rewrite O, HE.
  replace (h_dm (q_h0 s)) with (p_dm (q_pars s)); [reflexivity|]. apply FunctionalExtensionality.functional_extensionality. intro i. symmetry. apply D.
Qed.

(** from the basis in use back to the mass basis *)
Definition back (b : basis) (H : mat) (t : R) (A : mat) : mat := match b with BMass => A | _ => evolve H (- t) A end.

Lemma slope_back s b off ie r len (A : R -> mat) x : fresh s -> h_osc (q_h0 s) = true -> (3 <= q_numneu s)%nat -> (r < q_nrhos s)%nat ->
  Forall (fun p => (fst p < snd p < q_numneu s)%nat) order ->
  mderiv (q_numneu s) A x (slope order m s b off ie r x (A x)) ->
  mderiv (q_numneu s) (fun x => back (basis_of (o_basis (q_opts s))) (stored_H s ie) (x - sq_t0 (q_sq s)) (A x)) x
    (coherent (q_numneu s) (full (leg_world order m (settings_of s ie r) (Leg b off len)) x)
       (back (basis_of (o_basis (q_opts s))) (stored_H s ie) (x - sq_t0 (q_sq s)) (A x))).
Proof.
  intros F O L Hr OO D. set (l := Leg b off len). set (q := settings_of s ie r). set (w := leg_world order m q l).
  assert (EH : stored_H s ie = w_H w) by (apply stored_vacuum; assumption).
  assert (EP : forall f, (f < 3)%nat -> stored_P order s r f = w_P w f).
  { intros f Hf. rewrite (stored_flavour s ie r f F Hr) by (assumption || lia). reflexivity. }
  unfold slope, used_P in D. rewrite cc_charged, nc_neutral in D.
  assert (X : mderiv (q_numneu s) A x (coherent (q_numneu s)
     (match basis_of (o_basis (q_opts s)) with BMass => full w x | _ => evolve (w_H w) (x - sq_t0 (q_sq s)) (pot (w_cc w x) (w_nc w x) (w_P w)) end) (A x))).
  { eapply mderiv_meq; [|exact D]. eapply meq_trans; [apply rhs_zero|]. apply coherent_meq; [|apply meq_refl].
    rewrite EH. unfold hi. destruct (basis_of (o_basis (q_opts s))).
    2:{ unfold full, pot. rewrite !EP by lia. apply meq_refl. }
    all: unfold evolved; rewrite !EP by lia; apply meq_sym, evolve_pot. }
  clear D. rewrite EH. destruct (basis_of (o_basis (q_opts s))); cbn [back].
  2:{ exact X. }
  all: unfold full; apply back_to_mass; [exact (mass_diag w)|exact X].
Qed.

(** ** Legs one after the other *)
Definition total (ls : list leg) : R := fold_right (fun l x => l_len l + x) 0 ls.

Lemma way_meq q t ls A A' B : meq (st_n q) A A' -> way order m q t ls A B -> way order m q t ls A' B.
Proof.
  intros E W. inversion W; subst.
  - apply way_nil. eapply meq_trans; [apply meq_sym; exact E|assumption].
  - eapply way_leg; try eassumption. eapply meq_trans; [eassumption|exact E].
Qed.
Lemma way_end q t ls A B B' : meq (st_n q) B B' -> way order m q t ls A B -> way order m q t ls A B'.
Proof.
  intros E W. induction W as [t A B M|t l ls A B sol L S D W IH].
  - apply way_nil. eapply meq_trans; eassumption.
  - eapply way_leg; try eassumption. apply IH, E.
Qed.
Lemma way_snoc q t ls A B l (sol : R -> mat) T : way order m q t ls A B -> T = t + total ls -> 0 <= l_len l -> meq (st_n q) (sol T) B ->
  (forall x, T <= x <= T + l_len l -> mderiv (st_n q) sol x (coherent (st_n q) (full (leg_world order m q l) x) (sol x))) ->
  way order m q t (ls ++ [l]) A (sol (T + l_len l)).
Proof.
  intros W. revert T. induction W as [t A B M|t l0 ls A B sol0 L0 S D W IH]; intros T ET Ln Eq De; cbn [app total fold_right] in *.
  - replace T with t in * by lra. eapply way_leg; [exact Ln| |exact De|apply way_nil, meq_refl].
    eapply meq_trans; [exact Eq|]. apply meq_sym, M.
  - eapply way_leg; [exact L0|exact S|exact D|]. apply IH; try assumption. rewrite ET. fold (total ls). ring.
Qed.

(** ** One evolution *)
Lemma evolve_solved dt s s' ev : StateModel.evolve e dt s = (Done, s', ev) -> sq_num (q_sq s) = true ->
  exists ts t' st, e_solve e s dt = (ts, true, t', st) /\ sq_state (q_sq s') = st.
Proof.
  intros E NM. unfold StateModel.evolve, read in E. rewrite seq_eq in E. unfold emit in E. rewrite NM in E.
  destruct (e_solve e s dt) as [[[ts ok] t'] st] eqn:SV. rewrite seq_eq in E.
  destruct (meach ts (pre_derive) s) as [[r s1] e1]. destruct r; try discriminate E.
  destruct ok; [|rewrite seq_eq in E; discriminate E].
  unfold modify in E. injection E as <- _. exists ts, t', st. split; reflexivity.
Qed.

(** ** The invariant *)
Variable dec : nat -> nat -> list R -> nat -> nat -> mat.

Record on_way (s : nus) (t0 : R) (b : StateModel.basis) (v : nat -> nat -> nat -> R) (ls : list leg) : Prop := {
  ow_fresh : fresh s; ow_osc : h_osc (q_h0 s) = true; ow_t0 : sq_t0 (q_sq s) = t0; ow_t : sq_t (q_sq s) = t0 + total ls;
  ow_way : forall ie r, (ie < q_ne s)%nat -> (r < q_nrhos s)%nat -> exists B,
    way order m (settings_of s ie r) t0 ls (ini_state (q_numneu s) (basis_of b) (flavour order (settings_of s ie r)) (v ie r)) B /\
    meq (q_numneu s) (back (basis_of (o_basis (q_opts s))) (stored_H s ie) (sq_t (q_sq s) - t0) (matrix dec s (sq_state (q_sq s)) ie r)) B }.

Lemma on_way_frame s s' t0 b v ls : core s' = core s -> q_sq s' = q_sq s -> o_basis (q_opts s') = o_basis (q_opts s) ->
  on_way s t0 b v ls -> on_way s' t0 b v ls.
Proof.
  intros C Q B [F O T0 T W]. pose proof C as C'. unfold core in C'.
  injection C' as C1 C2 C3 C4 C5 C6 C7 C8 C9 C10 C11. constructor.
  - exact (fresh_core _ _ C F).
  - rewrite C8. exact O.
  - rewrite Q. exact T0.
  - rewrite Q. exact T.
  - unfold settings_of, matrix, stored_H in *. rewrite C1, C2, C3, C4, C5, C6, C8, Q, B. exact W.
Qed.

Lemma back_zero n b H t A : t = 0 -> meq n (back b H t A) A.
Proof.
  intros ->. destruct b; cbn [back]; [|apply meq_refl|]; intros i j _ _; unfold evolve;
    replace ((re (H i i) - re (H j j)) * - 0) with 0 by ring; rewrite cexp_0; ring.
Qed.

Lemma travelled_on k s0 h s t0 b v ls : made e k s0 -> history e s0 h s -> e_ini_num e true = true -> o_int (q_opts s0) = false -> ordinary h ->
  Forall (fun p => (fst p < snd p < q_numneu s)%nat) order -> exact order m dec e -> travelled h t0 b v ls -> on_way s t0 b v ls.
Proof.
  intros Mk H IN OI N OO EX TV. revert s H N OO.
  induction TV as [c ev s' h t b v I G T|ev s' h t0 b v ls bd t c1 TV IH B A L|c r ev s' h t0 b v ls TV IH G]; intros s0' H N OO;
    inversion H as [|h' s c' r' s1 ev' H' E U]; subst;
    assert (N' : ordinary h) by (intros en X; apply N; right; exact X);
    pose proof (history_agrees e k s0 h s Mk H') as AG; pose proof (ag_wf _ _ _ _ AG) as W;
    destruct (ordinary_switches k s0 h s Mk H' IN OI N') as ((S1 & S2 & S3 & S4 & S5) & S6).
  - destruct (init_cases e c s W I) as [X|(t1 & s1 & T1 & X & SS & _)]; [rewrite X in E; discriminate E|].
    rewrite X in E. injection E as -> <-.
    assert (t1 = t) as -> by (pose proof (ag_track _ _ _ _ AG) as Y; congruence).
    destruct (init_last c s s0' [] I X) as (s3 & E3). rewrite G in E3. cbn [fst snd] in E3.
    assert (C3 : q_numneu s3 = q_numneu s0' /\ q_ne s3 = q_ne s0' /\ q_nrhos s3 = q_nrhos s0' /\ q_proj s3 = q_proj s0') by (rewrite E3; repeat split).
    destruct C3 as (C1 & C2 & C3 & C4).
    pose proof (ss_fresh _ _ _ _ SS) as FR. constructor.
    + exact FR.
    + rewrite (ss_osc _ _ _ _ SS). exact S2.
    + apply SS.
    + rewrite (ss_t _ _ _ _ SS). cbn. ring.
    + intros ie r Hi Hr. exists (matrix dec s0' (sq_state (q_sq s0')) ie r). split.
      * apply way_nil. apply meq_sym. cbn [settings_of st_n].
        assert (Q : sq_state (q_sq s0') = e_mk e s3 v b) by (rewrite E3; reflexivity). rewrite Q.
        unfold matrix. rewrite <- C1, <- C3. eapply meq_trans; [apply (ex_mk _ _ _ _ EX); congruence|].
        unfold ini_state. apply msum_meq. intros j J. apply mscale_meq. destruct (basis_of b); try apply meq_refl.
        assert (stored_P order s3 r j = stored_P order s0' r j) as -> by (unfold stored_P; rewrite C1, C4; reflexivity).
        rewrite (stored_flavour s0' ie r j FR) by (try assumption; congruence). apply meq_refl.
      * apply back_zero. rewrite (ss_t _ _ _ _ SS). ring.
  - pose proof (ag_anchor _ _ _ _ AG) as AN. rewrite A in AN. destruct AN as (LT & OF).
    pose proof (ag_track _ _ _ _ AG) as QT. rewrite LT in QT. pose proof (ag_body _ _ _ _ AG) as QB. rewrite B in QB.
    pose proof E as E0. cbn [exec] in E. rewrite (evolve_state_eq e bd t s QB QT) in E.
    destruct (has_all s) eqn:HA; [|discriminate E]. rewrite seq_eq, prep_simple in E by congruence.
    unfold rlt in E. destruct (Rlt_dec (tr_fin t) (tr_ini t)) as [X|_]; [lra|].
    unfold tail_, shortcut in E. rewrite S3, S4, andb_false_r in E.
    destruct (StateModel.evolve e (tr_fin t - tr_ini t) s) as [[r2 s2] e2] eqn:E2. injection E as -> -> _.
    destruct (evolve_done e _ _ _ _ E2) as (BX & _ & _). destruct (evolve_solved _ _ _ _ E2 S6) as (ts & t' & st & SV & ST).
    assert (C : core s0' = core s).
    { pose proof (core_exec e CEvolve eq_refl eq_refl s) as K. rewrite E0 in K. exact K. }
    assert (OB : q_opts s0' = q_opts s).
    { change (q_opts s0') with (q_opts (but_x s0')). rewrite BX. reflexivity. }
    assert (T' : sq_t (q_sq s0') = sq_t (q_sq s) + (tr_fin t - tr_ini t)) by (exact (evolve_clock e _ _ _ _ E2)).
    assert (T0' : sq_t0 (q_sq s0') = sq_t0 (q_sq s)).
    { change (sq_t0 (q_sq s0')) with (sq_t0 (q_sq (but_x s0'))). rewrite BX. reflexivity. }
    pose proof C as C'. unfold core in C'. injection C' as C1 C2 C3 C4 C5 C6 C7 C8 C9 C10 C11.
    rewrite C2 in OO. destruct (IH s H' N' OO) as [F O T0 T WY].
    set (l := Leg bd (c1 - tr_ini t) (tr_fin t - tr_ini t)).
    assert (TL : total (ls ++ [l]) = total ls + (tr_fin t - tr_ini t)).
    { clear. induction ls as [|a ls IH]; cbn [app total fold_right] in *; [unfold l; cbn; ring|]. unfold total in IH. rewrite IH. ring. }
    constructor.
    + exact (fresh_core _ _ C F).
    + rewrite C8. exact O.
    + rewrite T0'. exact T0.
    + rewrite T', T, TL. ring.
    + assert (SO : forall ie r, settings_of s0' ie r = settings_of s ie r) by (intros; unfold settings_of; rewrite C1, C2, C5, C6; reflexivity).
      intros ie r Hi Hr. rewrite SO, C2. rewrite C3 in Hi. rewrite C4 in Hr.
      destruct (WY ie r Hi Hr) as (Bm & WB & EB).
      destruct (ex_solve _ _ _ _ EX s (tr_fin t - tr_ini t) ts t' st bd (c1 - tr_ini t) SV ltac:(lra) QB OF S2 O S1 S5 ie r Hi Hr) as (Sol & D & I0 & I1).
      set (sol := fun x => back (basis_of (o_basis (q_opts s))) (stored_H s ie) (x - sq_t0 (q_sq s)) (Sol x)).
      exists (sol (sq_t (q_sq s) + l_len l)). split.
      * apply way_snoc with (T := sq_t (q_sq s)) (B := Bm).
        -- exact WB.
        -- exact T.
        -- cbn. lra.
        -- eapply meq_trans; [|exact EB]. unfold sol. rewrite T0. cbn [settings_of st_n].
           destruct (basis_of (o_basis (q_opts s))); cbn [back]; try exact I0; apply evolve_meq, I0.
        -- intros x Hx. cbn [settings_of st_n]. apply slope_back; try assumption; [apply (wf_min _ _ W)|]. apply D. exact Hx.
      * unfold sol, matrix. rewrite OB, C2, C4, ST, T', <- T0. change (l_len l) with (tr_fin t - tr_ini t).
        assert (SH : stored_H s0' ie = stored_H s ie) by (unfold stored_H; rewrite C2, C8; reflexivity). rewrite SH.
        destruct (basis_of (o_basis (q_opts s))); cbn [back]; try exact I1; apply evolve_meq, I1.
  - assert (OB : s0' = out_obj (exec e c s)) by (rewrite E; reflexivity).
    destruct G as [G|(I & ->)].
    2:{ destruct (init_cases e c s W I) as [X|(t1 & s1 & _ & X & _)]; rewrite X in E; [|discriminate E]. injection E as <- _. apply IH; assumption. }
    assert (I : is_init c = false) by (destruct c; try reflexivity; discriminate G).
    assert (P : is_param c = false) by (destruct c; try reflexivity; discriminate G).
    assert (V : is_evolve c = false) by (destruct c; try reflexivity; discriminate G).
    assert (C : core s0' = core s).
    { pose proof (core_exec e c I P s) as K. rewrite E in K. exact K. }
    assert (Q : q_sq s0' = q_sq s) by (rewrite OB; apply sq_frame; assumption).
    assert (BB : o_basis (q_opts s0') = o_basis (q_opts s)).
    { rewrite OB. destruct (is_opt c) eqn:OP; [|rewrite opts_frame by assumption; reflexivity].
      destruct c; try discriminate OP; try discriminate G; cbn [exec];
        unfold set_tau, set_gr, set_osc, set_pos, set_const, set_scale, set_sources, read, modify, throw;
        repeat match goal with |- context [if ?b then _ else _] => destruct b end; reflexivity. }
    apply (on_way_frame s s0' t0 b v ls C Q BB). apply IH; [exact H'|exact N'|].
    unfold core in C. injection C as _ C2 _ _ _ _ _ _ _ _ _. rewrite <- C2. exact OO.
Qed.

End Proof.

(** ** C94 *)

(** all that is supposed of the object and its life: made without interactions, nothing but ordinary switches, [s] reached *)
Definition lived (e : env) (order : list (nat * nat)) (m : media) (dec : nat -> nat -> list R -> nat -> nat -> mat)
    (s0 : nus) (h : list entry) (s : nus) : Prop :=
  (exists k, made e k s0) /\ history e s0 h s /\ o_int (q_opts s0) = false /\ ordinary h /\
  e_ini_num e true = true /\ exact order m dec e /\ Forall (fun p => (fst p < snd p < q_numneu s)%nat) order.

Lemma lived_min e order m dec s0 h s : lived e order m dec s0 h s -> (3 <= q_numneu s)%nat.
Proof. intros ((k & Mk) & H & _). exact (wf_min _ _ (ag_wf _ _ _ _ (history_agrees e k s0 h s Mk H))). Qed.
Lemma lived_ok e order m dec s0 h s ie r l : lived e order m dec s0 h s -> w_ok (leg_world order m (settings_of s ie r) l).
Proof.
  intro L. split; [exact (lived_min _ _ _ _ _ _ _ L)|]. destruct L as (_ & _ & _ & _ & _ & _ & O).
  eapply Forall_impl; [|exact O]. intros [a b] P. cbn [fst snd] in *. cbn. lia.
Qed.

Lemma read_back n b H t t0 A Q : expect n (match b with BMass => Q | _ => evolve H (t - t0) Q end) A = expect n Q (back b H (t - t0) A).
Proof.
  destruct b; cbn [back]; [|reflexivity|]; unfold expect; rewrite <- (evolve_shift n H (- (t - t0)) (evolve H (t - t0) Q) A); f_equal;
    apply trace_meq, mmult_meq; try apply meq_refl; intros i j _ _; unfold evolve; set (d := re (H i i) - re (H j j));
    replace (cexp (d * - (t - t0)) * (cexp (d * (t - t0)) * Q i j))%C with ((cexp (d * - (t - t0)) * cexp (d * (t - t0))) * Q i j)%C by ring;
    rewrite cexp_plus; replace (d * - (t - t0) + d * (t - t0)) with 0 by ring; rewrite cexp_0; ring.
Qed.

Lemma lived_read e order m dec s0 h s t0 b v ls ie : lived e order m dec s0 h s -> travelled h t0 b v ls ->
  on_way order m dec s t0 b v ls /\ read_H s ie = stored_H s ie.
Proof.
  intros ((k & Mk) & H & OI & N & IN & EX & OO) TV. split; [exact (travelled_on e order m dec k s0 h s t0 b v ls Mk H IN OI N OO EX TV)|].
  pose proof (travelled_on e order m dec k s0 h s t0 b v ls Mk H IN OI N OO EX TV) as [(_ & _ & F) O _ _ _].
  destruct (ordinary_switches e k s0 h s Mk H IN OI N) as ((_ & S & _) & _). unfold read_H, stored_H. rewrite O, S, F. reflexivity.
Qed.

(** Whatever was done to the object before: after a state is set and evolved along any legs, the
    flavour contents are those of the equation for the present settings. *)
Theorem c94_reading e order m dec s0 h s t0 b v ls ie r f : lived e order m dec s0 h s -> travelled h t0 b v ls ->
  (ie < q_ne s)%nat -> (r < q_nrhos s)%nat -> (f < q_numneu s)%nat ->
  answer order m (settings_of s ie r) t0 (basis_of b) (v ie r) ls f (content order dec s ie r f).
Proof.
  intros L TV Hi Hr Hf. destruct (lived_read _ _ _ _ _ _ _ _ _ _ _ ie L TV) as ([F O T0 T W] & RH).
  destruct (W ie r Hi Hr) as (B & WB & EB). exists B. split; [exact WB|]. unfold content. rewrite RH, T0.
  destruct L as (_ & _ & _ & _ & _ & _ & OO).
  pose proof (read_back (q_numneu s) (basis_of (o_basis (q_opts s))) (stored_H s ie) (sq_t (q_sq s)) t0 (matrix dec s (sq_state (q_sq s)) ie r) (stored_P order s r f)) as X.
  rewrite (stored_flavour order s ie r f F Hr Hf OO) in X.
  replace (eval_flavor _ _ _ _ _ _ _ f) with (expect (q_numneu s) (flavour order (settings_of s ie r) f) (back (basis_of (o_basis (q_opts s))) (stored_H s ie) (sq_t (q_sq s) - t0) (matrix dec s (sq_state (q_sq s)) ie r))).
  - apply expect_meq; [apply meq_refl|exact EB].
  - rewrite <- X. unfold eval_flavor. rewrite (stored_flavour order s ie r f F Hr Hf OO). destruct (basis_of (o_basis (q_opts s))); reflexivity.
Qed.
Theorem c94_mass_reading e order m dec s0 h s t0 b v ls ie r f : lived e order m dec s0 h s -> travelled h t0 b v ls ->
  (ie < q_ne s)%nat -> (r < q_nrhos s)%nat -> (f < q_numneu s)%nat ->
  mass_answer order m (settings_of s ie r) t0 (basis_of b) (v ie r) ls f (mass_content dec s ie r f).
Proof.
  intros L TV Hi Hr Hf. destruct (lived_read _ _ _ _ _ _ _ _ _ _ _ ie L TV) as ([F O T0 T W] & RH).
  destruct (W ie r Hi Hr) as (B & WB & EB). exists B. split; [exact WB|]. unfold mass_content. rewrite RH, T0.
  pose proof (read_back (q_numneu s) (basis_of (o_basis (q_opts s))) (stored_H s ie) (sq_t (q_sq s)) t0 (matrix dec s (sq_state (q_sq s)) ie r) (b0_proj f)) as X.
  replace (eval_mass _ _ _ _ _ _ f) with (expect (q_numneu s) (b0_proj f) (back (basis_of (o_basis (q_opts s))) (stored_H s ie) (sq_t (q_sq s) - t0) (matrix dec s (sq_state (q_sq s)) ie r))).
  - apply expect_meq; [apply meq_refl|exact EB].
  - rewrite <- X. unfold eval_mass. destruct (basis_of (o_basis (q_opts s))); reflexivity.
Qed.

(** *** The answer is unique *)
Definition same_settings (q q' : settings) : Prop :=
  st_n q' = st_n q /\ is_anti (st_nt q') (st_r q') = is_anti (st_nt q) (st_r q) /\ st_E q' = st_E q /\
  (forall i j, (i < j < st_n q)%nat -> st_th q' i j = st_th q i j /\ st_dl q' i j = st_dl q i j) /\
  (forall i, (0 < i < st_n q)%nat -> st_dm q' i = st_dm q i).

Lemma msum_ext_eq n f g : (forall i, (i < n)%nat -> f i = g i) -> msum n f = msum n g.
Proof. induction n as [|n IH]; intro H; [reflexivity|]. cbn [msum]. rewrite IH, (H n) by auto. reflexivity. Qed.
Lemma fixed_by_anti t r t' r' dl i j : is_anti t' r' = is_anti t r -> fixed_phases (type_of t') r' dl i j = fixed_phases (type_of t) r dl i j.
Proof.
  unfold is_anti. destruct t, t'; cbn [nt_eqb andb orb type_of fixed_phases]; rewrite ?orb_false_r; intro E; try reflexivity; try discriminate E;
    rewrite ?E; try (rewrite <- E); reflexivity.
Qed.

Section Same.
Variable order : list (nat * nat).
Variable m : media.
Variables q q' : settings.
Hypothesis SQ : same_settings q q'.
Hypothesis OO : Forall (fun p => (fst p < snd p < st_n q)%nat) order.
Hypothesis L3 : (3 <= st_n q)%nat.

Lemma same_flavour f : flavour order q' f = flavour order q f.
Proof.
  destruct SQ as (N & A & E & P & D). unfold flavour, b1_proj. rewrite N. f_equal. apply mix_ext; [exact OO|].
  intros i j Hij. destruct (P i j Hij) as (P1 & P2). split; [exact P1|]. rewrite (fixed_by_anti _ _ _ _ _ _ _ A).
  unfold fixed_phases. destruct (type_of (st_nt q)); try destruct (Nat.eqb (st_r q) 1); rewrite ?P2; reflexivity.
Qed.
Lemma same_full l x : full (leg_world order m q' l) x = full (leg_world order m q l) x.
Proof.
  unfold full. pose proof SQ as (N & A & E & P & D). f_equal.
  - unfold pot. change (w_P (leg_world order m q' l)) with (flavour order q'). change (w_P (leg_world order m q l)) with (flavour order q).
    rewrite !same_flavour. cbn [leg_world w_cc w_nc]. unfold charged, neutral. rewrite !is_anti_sign, A. reflexivity.
  - unfold w_H, h0, dm2. cbn [leg_world w_n w_osc w_ediff w_E]. rewrite N, E. f_equal. apply msum_ext_eq. intros i Hi. rewrite D by lia. reflexivity.
Qed.
Lemma same_ini b v v' : (forall j, (j < st_n q)%nat -> v' j = v j) ->
  ini_state (st_n q') b (flavour order q') v' = ini_state (st_n q) b (flavour order q) v.
Proof.
  intro V. unfold ini_state. destruct SQ as (N & _). rewrite N. apply msum_ext_eq. intros i Hi. rewrite V by exact Hi. destruct b; rewrite ?same_flavour; reflexivity.
Qed.
Lemma same_way t ls A B : way order m q' t ls A B -> way order m q t ls A B.
Proof.
  pose proof SQ as (N & _). intro W. induction W as [t A B M|t l ls A B sol L S D W IH].
  - apply way_nil. rewrite <- N. exact M.
  - eapply way_leg; [exact L|rewrite <- N; exact S| |exact IH]. intros x X. rewrite <- N, <- same_full. apply D, X.
Qed.
Lemma way_unique t ls A A' B B' : pairs_ok (st_n q) order -> meq (st_n q) A A' -> way order m q t ls A B -> way order m q t ls A' B' -> meq (st_n q) B B'.
Proof.
  intros PO M W. revert A' B' M. induction W as [t A B E|t l ls A B sol L S D W IH]; intros A' B' M W'; inversion W'; subst.
  - eapply meq_trans; [apply meq_sym; exact E|]. eapply meq_trans; [exact M|assumption].
  - match goal with X : way _ _ _ _ ls (?s2 _) _, Y : forall x, _ -> mderiv _ ?s2 x _ |- _ => rename X into W2; rename Y into D2; rename s2 into sol2 end.
    eapply IH; [|exact W2].
    apply (same_solution (st_n q) sol sol2 (full (leg_world order m q l)) (fun _ => mzero) (fun _ => mzero) (fun _ => mzero) t (t + l_len l)); [lra| | |lra].
    + intros x X. split; [exact (full_hermitian (leg_world order m q l) x (conj L3 PO))|]. split; [apply psd_zero|]. split; [apply meq_refl|].
      split; (eapply FlavorEqn.mderiv_meq; [apply meq_sym; apply rhs_zero|]); [apply D, X|apply D2, X].
    + eapply meq_trans; [exact S|]. eapply meq_trans; [exact M|]. apply meq_sym. assumption.
Qed.
End Same.

Lemma ordered_ok n order : Forall (fun p : nat * nat => (fst p < snd p < n)%nat) order -> pairs_ok n order.
Proof. intro O. eapply Forall_impl; [|exact O]. intros [a b] P. cbn [fst snd] in *. lia. Qed.
Lemma answer_unique order m q q' t0 b v v' ls f p p' : (3 <= st_n q)%nat -> Forall (fun p => (fst p < snd p < st_n q)%nat) order -> same_settings q q' ->
  (forall j, (j < st_n q)%nat -> v' j = v j) ->
  (answer order m q t0 b v ls f p -> answer order m q' t0 b v' ls f p' -> p' = p) /\
  (mass_answer order m q t0 b v ls f p -> mass_answer order m q' t0 b v' ls f p' -> p' = p).
Proof.
  intros L O S V.
  assert (K : forall B B', way order m q t0 ls (ini_state (st_n q) b (flavour order q) v) B ->
     way order m q' t0 ls (ini_state (st_n q') b (flavour order q') v') B' -> meq (st_n q) B' B).
  { intros B B' W W'. apply (same_way order m q q' S O L) in W'. rewrite (same_ini order q q' S O b v v' V) in W'. apply meq_sym.
    exact (way_unique order m q L t0 ls _ _ B B' (ordered_ok _ _ O) (meq_refl _ _) W W'). }
  pose proof S as (N & _). split; intros (B & W & ->) (B' & W' & ->); rewrite N.
  - rewrite (same_flavour order q q' S O f). apply expect_meq; [apply meq_refl|]. exact (K B B' W W').
  - apply expect_meq; [apply meq_refl|]. exact (K B B' W W').
Qed.

(** Two objects, of whatever past, grids, bases and numerics, with the same settings at a node and
    type, the same fluxes put in and the same legs, show the same there. *)
Theorem c94_same_answer e e' order m dec dec' s0 s0' h h' s s' t0 b v v' ls ie ie' r r' f :
  lived e order m dec s0 h s -> lived e' order m dec' s0' h' s' -> travelled h t0 b v ls -> travelled h' t0 b v' ls ->
  (ie < q_ne s)%nat -> (r < q_nrhos s)%nat -> (ie' < q_ne s')%nat -> (r' < q_nrhos s')%nat -> (f < q_numneu s)%nat ->
  same_settings (settings_of s ie r) (settings_of s' ie' r') -> (forall j, (j < q_numneu s)%nat -> v' ie' r' j = v ie r j) ->
  content order dec' s' ie' r' f = content order dec s ie r f /\ mass_content dec' s' ie' r' f = mass_content dec s ie r f.
Proof.
  intros L L' T T' Hi Hr Hi' Hr' Hf SS V. assert (Hf' : (f < q_numneu s')%nat) by (destruct SS as (N & _); cbn in N; lia).
  assert (OO : Forall (fun p => (fst p < snd p < q_numneu s)%nat) order) by apply L.
  destruct (answer_unique order m (settings_of s ie r) (settings_of s' ie' r') t0 (basis_of b) (v ie r) (v' ie' r') ls f
    (content order dec s ie r f) (content order dec' s' ie' r' f) (lived_min _ _ _ _ _ _ _ L) OO SS V) as (X & _).
  destruct (answer_unique order m (settings_of s ie r) (settings_of s' ie' r') t0 (basis_of b) (v ie r) (v' ie' r') ls f
    (mass_content dec s ie r f) (mass_content dec' s' ie' r' f) (lived_min _ _ _ _ _ _ _ L) OO SS V) as (_ & Y).
  split; [apply X|apply Y]; try (eapply c94_reading; eassumption); eapply c94_mass_reading; eassumption.
Qed.

(** Stopping on the way changes nothing. *)
Lemma way_split order m q bd sh x y ls2 : 0 <= x -> 0 <= y -> forall ls1 t A B,
  way order m q t (ls1 ++ Leg bd sh (x + y) :: ls2) A B -> way order m q t (ls1 ++ Leg bd sh x :: Leg bd sh y :: ls2) A B.
Proof.
  intros X Y ls1. induction ls1 as [|l ls1 IH]; intros t A B W; cbn [app] in *; inversion W; subst.
  - match goal with W2 : way _ _ _ _ ls2 (?s2 _) _ |- _ => rename s2 into so; rename W2 into Wr end.
    match goal with D : forall z, _ -> mderiv _ so z _, M : meq _ (so t) A |- _ => rename D into De; rename M into Me end.
    cbn [l_len] in *. apply way_leg with (sol := so); cbn [l_len]; [exact X|exact Me| |].
    + intros z Z. apply De. lra.
    + apply way_leg with (sol := so); cbn [l_len]; [exact Y|apply meq_refl| |].
      * intros z Z. apply De. lra.
      * replace (t + x + y) with (t + (x + y)) by ring. exact Wr.
  - eapply way_leg; try eassumption. apply IH. assumption.
Qed.
Theorem c94_stop e e' order m dec dec' s0 s0' h h' s s' t0 b v v' ls1 ls2 bd sh x y ie ie' r r' f :
  lived e order m dec s0 h s -> lived e' order m dec' s0' h' s' -> 0 <= x -> 0 <= y ->
  travelled h t0 b v (ls1 ++ Leg bd sh (x + y) :: ls2) -> travelled h' t0 b v' (ls1 ++ Leg bd sh x :: Leg bd sh y :: ls2) ->
  (ie < q_ne s)%nat -> (r < q_nrhos s)%nat -> (ie' < q_ne s')%nat -> (r' < q_nrhos s')%nat -> (f < q_numneu s)%nat ->
  same_settings (settings_of s ie r) (settings_of s' ie' r') -> (forall j, (j < q_numneu s)%nat -> v' ie' r' j = v ie r j) ->
  content order dec' s' ie' r' f = content order dec s ie r f.
Proof.
  intros L L' X Y T T' Hi Hr Hi' Hr' Hf SS V. assert (Hf' : (f < q_numneu s')%nat) by (destruct SS as (N & _); cbn in N; lia).
  assert (OO : Forall (fun p => (fst p < snd p < q_numneu s)%nat) order) by apply L.
  refine (proj1 (answer_unique order m (settings_of s ie r) (settings_of s' ie' r') t0 (basis_of b) (v ie r) (v' ie' r') _ f
    _ _ (lived_min _ _ _ _ _ _ _ L) OO SS V) _ (c94_reading e' order m dec' s0' h' s' t0 b v' _ ie' r' f L' T' Hi' Hr' Hf')).
  destruct (c94_reading e order m dec s0 h s t0 b v _ ie r f L T Hi Hr Hf) as (B & W & E). exists B. split; [|exact E].
  apply way_split; assumption.
Qed.

(** *** Conservation *)
Lemma way_trace order m q t ls A B : way order m q t ls A B -> re (trace (st_n q) B) = re (trace (st_n q) A).
Proof.
  intro W. induction W as [t A B M|t l ls A B sol L S D W IH].
  - rewrite (trace_meq _ _ _ M). reflexivity.
  - rewrite IH. rewrite <- (trace_meq _ _ _ S). rewrite <- (trace_meq _ _ _ (mmult_id_l _ (sol (t + l_len l)))), <- (trace_meq _ _ _ (mmult_id_l _ (sol t))).
    apply (pair_still (st_n q) (full (leg_world order m q l)) (fun _ => mid) sol t (t + l_len l)); [lra|].
    intros x X. split; [eapply FlavorEqn.mderiv_meq; [apply meq_sym, coherent_of_id|apply mderiv_const]|apply D, X].
Qed.
Lemma way_psd order m q t ls A B : (3 <= st_n q)%nat -> pairs_ok (st_n q) order -> way order m q t ls A B -> psd (st_n q) A -> psd (st_n q) B.
Proof.
  intros L3 PO W. induction W as [t A B M|t l ls A B sol L S D W IH]; intro P.
  - exact (psd_meq _ _ _ M P).
  - apply IH. apply (stays_psd (st_n q) sol (full (leg_world order m q l)) (fun _ => mzero) (fun _ => mzero) t (t + l_len l)); [lra| | |lra].
    + intros x X. split; [exact (full_hermitian (leg_world order m q l) x (conj L3 PO))|]. split; [apply herm_zero|].
      split; [apply psd_zero|]. split; [apply psd_zero|]. eapply FlavorEqn.mderiv_meq; [apply meq_sym; apply rhs_zero|apply D, X].
    + apply (psd_meq _ A); [apply meq_sym, S|exact P].
Qed.

Definition starting (order : list (nat * nat)) (q : settings) (b : basis) : nat -> mat := match b with BFlavor => flavour order q | _ => b0_proj end.
Lemma starting_frame order q b : pairs_ok (st_n q) order -> exists V, unitary (st_n q) V /\ frame (st_n q) V (starting order q b).
Proof.
  intro PO. destruct b; cbn [starting].
  3:{ eexists. split; [apply mixing_unitary, PO|apply frame_b1]. }
  all: exists mid; split; [|apply frame_b0]; exact (mixing_unitary (st_n q) (fun _ _ => 0) (fun _ _ => 0) [] (Forall_nil _)).
Qed.
Lemma ini_starting order q b v : ini_state (st_n q) b (flavour order q) v = msum (st_n q) (fun j => mscale (v j) (starting order q b j)).
Proof. unfold ini_state, starting. destruct b; reflexivity. Qed.
Lemma ini_trace order q b v : pairs_ok (st_n q) order -> re (trace (st_n q) (ini_state (st_n q) b (flavour order q) v)) = rsum (st_n q) v.
Proof.
  intro PO. destruct (starting_frame order q b PO) as (V & U & F). rewrite ini_starting, trace_msum, csum_re. apply rsum_ext. intros j J.
  rewrite trace_scale, (proj2 (frame_projector _ _ _ j U F J)). cbn. ring.
Qed.
Lemma psd_msum n k f : (forall j, (j < k)%nat -> psd n (f j)) -> psd n (msum k f).
Proof. induction k as [|k IH]; intro H; cbn [msum]; [apply psd_zero|]. apply psd_plus; [apply IH; auto|apply H; auto]. Qed.
Lemma ini_psd order q b v : pairs_ok (st_n q) order -> (forall j, (j < st_n q)%nat -> 0 <= v j) -> psd (st_n q) (ini_state (st_n q) b (flavour order q) v).
Proof.
  intros PO V0. destruct (starting_frame order q b PO) as (V & U & F). rewrite ini_starting. apply psd_msum. intros j J.
  apply psd_scale; [apply V0, J|]. apply psd_projector. apply (frame_projector _ _ _ j U F J).
Qed.

(** The contents add up to what was put in, and none is negative or exceeds it. *)
Theorem c94_total e order m dec s0 h s t0 b v ls ie r : lived e order m dec s0 h s -> travelled h t0 b v ls ->
  (ie < q_ne s)%nat -> (r < q_nrhos s)%nat -> rsum (q_numneu s) (content order dec s ie r) = rsum (q_numneu s) (v ie r).
Proof.
  intros L T Hi Hr. assert (OO : Forall (fun p => (fst p < snd p < q_numneu s)%nat) order) by apply L. pose proof (ordered_ok _ _ OO) as PO.
  pose proof (lived_min _ _ _ _ _ _ _ L) as L3. set (q := settings_of s ie r).
  destruct (c94_reading e order m dec s0 h s t0 b v ls ie r 0 L T Hi Hr) as (B & W & _); [lia|].
  rewrite (rsum_ext _ _ (fun f => expect (st_n q) (flavour order q f) B)).
  - change (q_numneu s) with (st_n q). rewrite (frame_total (st_n q) (mixing (st_n q) (st_th q) (fixed_phases (type_of (st_nt q)) (st_r q) (st_dl q)) order) (flavour order q) B).
    + exact (eq_trans (way_trace order m _ _ _ _ _ W) (ini_trace order q (basis_of b) (v ie r) PO)).
    + apply mixing_unitary, PO.
    + apply frame_b1.
  - intros f Hf. refine (proj1 (answer_unique order m q q t0 (basis_of b) (v ie r) (v ie r) ls f _ _ L3 OO _ (fun _ _ => eq_refl)) _ (c94_reading e order m dec s0 h s t0 b v ls ie r f L T Hi Hr Hf)).
    + repeat split.
    + exists B. split; [exact W|reflexivity].
Qed.
Theorem c94_bounds e order m dec s0 h s t0 b v ls ie r f : lived e order m dec s0 h s -> travelled h t0 b v ls ->
  (ie < q_ne s)%nat -> (r < q_nrhos s)%nat -> (f < q_numneu s)%nat -> (forall j, (j < q_numneu s)%nat -> 0 <= v ie r j) ->
  0 <= content order dec s ie r f <= rsum (q_numneu s) (v ie r).
Proof.
  intros L T Hi Hr Hf V0. assert (OO : Forall (fun p => (fst p < snd p < q_numneu s)%nat) order) by apply L. pose proof (ordered_ok _ _ OO) as PO.
  pose proof (lived_min _ _ _ _ _ _ _ L) as L3.
  assert (Pos : forall k, (k < q_numneu s)%nat -> 0 <= content order dec s ie r k).
  { intros k K. destruct (c94_reading e order m dec s0 h s t0 b v ls ie r k L T Hi Hr K) as (B & W & ->).
    apply psd_content.
    - apply (frame_projector _ _ (flavour order (settings_of s ie r)) k (mixing_unitary _ _ _ _ PO) (frame_b1 _ _ _ _ _ _) K).
    - apply (way_psd order m (settings_of s ie r) _ _ _ _ L3 PO W). exact (ini_psd order (settings_of s ie r) (basis_of b) (v ie r) PO V0). }
  split; [apply Pos, Hf|]. rewrite <- (c94_total e order m dec s0 h s t0 b v ls ie r L T Hi Hr). apply rsum_term; assumption.
Qed.

(** Before any leg the contents are those put in. *)
Theorem c94_start e order m dec s0 h s t0 v ie r f : lived e order m dec s0 h s -> travelled h t0 StateModel.BFlavor v [] ->
  (ie < q_ne s)%nat -> (r < q_nrhos s)%nat -> (f < q_numneu s)%nat -> content order dec s ie r f = v ie r f.
Proof.
  intros L T Hi Hr Hf. assert (OO : Forall (fun p => (fst p < snd p < q_numneu s)%nat) order) by apply L. pose proof (ordered_ok _ _ OO) as PO.
  destruct (c94_reading e order m dec s0 h s t0 _ v [] ie r f L T Hi Hr Hf) as (B & W & ->). inversion W as [? ? ? M|]; subst.
  rewrite <- (expect_meq _ _ _ _ _ (meq_refl _ _) M). set (q := settings_of s ie r).
  assert (U : unitary (st_n q) (mixing (st_n q) (st_th q) (fixed_phases (type_of (st_nt q)) (st_r q) (st_dl q)) order)) by apply mixing_unitary, PO.
  rewrite ini_starting. unfold expect. rewrite (trace_meq _ _ _ (mmult_msum_r _ _ _ _)), trace_msum.
  rewrite (csum_single (st_n q) f).
  - rewrite (trace_meq _ _ _ (mmult_scale_r _ _ _ _)), trace_scale. cbn [basis_of starting].
    rewrite (frame_trace _ _ (flavour order q) f f U (frame_b1 _ _ _ _ _ _) Hf Hf). unfold delta. rewrite Nat.eqb_refl. cbn. ring.
  - exact Hf.
  - intros j J N. rewrite (trace_meq _ _ _ (mmult_scale_r _ _ _ _)), trace_scale. cbn [basis_of starting].
    rewrite (frame_trace _ _ (flavour order q) j f U (frame_b1 _ _ _ _ _ _) J Hf). unfold delta.
    replace (Nat.eqb f j) with false by (symmetry; apply Nat.eqb_neq; congruence). apply Ceq; cbn; ring.
Qed.

(** *** In vacuum *)
Lemma dark_pot m t r b p : m_rho m b p = 0 -> cc_at m t r b p = 0 /\ nc_at m t r b p = 0.
Proof.
  intro Z. unfold cc_at, nc_at, hi_coeffs. rewrite Z.
  destruct (is_anti t r); destruct (rlt _ _); cbn [fst snd]; split; ring.
Qed.
Lemma coherent_zero n A : meq n (coherent n mzero A) mzero.
Proof.
  intros i j _ _. unfold coherent.
  assert (Z1 : mmult n mzero A i j = c0) by (apply csum_zero; intros k _; unfold mzero; ring).
  assert (Z2 : mmult n A mzero i j = c0) by (apply csum_zero; intros k _; unfold mzero; ring).
  rewrite Z1, Z2. unfold mzero. apply Ceq; cbn; ring.
Qed.
Lemma pot_zero n P : meq n (pot 0 0 P) mzero.
Proof. intros i j _ _. unfold pot, mplus, mscale, mzero. apply Ceq; cbn; ring. Qed.
Lemma rotates n H A t0 x : diag_real n H ->
  mderiv n (fun x => evolve H (- (x - t0)) A) x (coherent n H (evolve H (- (x - t0)) A)).
Proof.
  intro D. eapply FlavorEqn.mderiv_meq; [|apply (back_to_mass n H mzero (fun _ => A) t0 x); [exact D|]].
  - apply coherent_meq; [|apply meq_refl]. intros i j _ _. unfold mplus, mzero. ring.
  - eapply FlavorEqn.mderiv_meq; [|apply mderiv_const]. apply meq_sym. eapply meq_trans; [apply coherent_meq; [apply evolve_zero|apply meq_refl]|apply coherent_zero].
Qed.

Definition dark (m : media) (ls : list leg) : Prop := Forall (fun l => 0 <= l_len l /\ forall p, m_rho m (l_body l) p = 0) ls.
Definition vacuum (q : settings) : mat := h0 (st_n q) true (st_dm q) (st_E q).
Lemma way_dark order m q ls : dark m ls -> forall t A, way order m q t ls A (evolve (vacuum q) (- total ls) A).
Proof.
  intro D. induction D as [|l ls (L0 & Z) D IH]; intros t A.
  - apply way_nil. apply meq_sym. exact (back_zero (st_n q) BInter (vacuum q) 0 A eq_refl).
  - apply way_leg with (sol := fun x => evolve (vacuum q) (- (x - t)) A); [exact L0| | |].
    + exact (back_zero (st_n q) BInter (vacuum q) (t - t) A (Rminus_diag_eq _ _ eq_refl)).
    + intros x _. eapply FlavorEqn.mderiv_meq; [|apply rotates; apply h0_diag_real]. apply coherent_meq; [|apply meq_refl].
      unfold full. cbn [leg_world w_cc w_nc]. rewrite <- cc_charged, <- nc_neutral. destruct (dark_pot m (st_nt q) (st_r q) (l_body l) (x - l_shift l) (Z _)) as (-> & ->).
      apply meq_sym. eapply meq_trans; [apply mplus_meq; [apply pot_zero|apply meq_refl]|]. intros i j _ _. change (w_H (leg_world order m q l)) with (vacuum q). unfold mplus, mzero. ring.
    + eapply way_end; [|apply IH]. eapply meq_trans; [apply evolve_evolve|]. cbn [total fold_right]. fold (total ls).
      replace (- total ls + - (t + l_len l - t)) with (- (l_len l + total ls)) by ring. apply meq_refl.
Qed.

(** Through vacuum the contents are those of the textbook formula, whatever the legs. *)
Theorem c94_vacuum e order m dec s0 h s t0 v ls ie r f : lived e order m dec s0 h s -> travelled h t0 StateModel.BFlavor v ls -> dark m ls ->
  (ie < q_ne s)%nat -> (r < q_nrhos s)%nat -> (f < q_numneu s)%nat -> nth ie (q_E s) 0 <> 0 ->
  content order dec s ie r f = rsum (q_numneu s) (fun j => v ie r j *
    osc_prob (q_numneu s) (mixing (q_numneu s) (p_angle (q_pars s)) (fixed_phases (type_of (q_nt s)) r (p_phase (q_pars s))) order)
      (splitting (p_dm (q_pars s)) (nth ie (q_E s) 0)) (total ls) j f).
Proof.
  intros L T Dk Hi Hr Hf HE. assert (OO : Forall (fun p => (fst p < snd p < q_numneu s)%nat) order) by apply L. pose proof (ordered_ok _ _ OO) as PO.
  pose proof (lived_min _ _ _ _ _ _ _ L) as L3. set (q := settings_of s ie r).
  destruct (c94_reading e order m dec s0 h s t0 _ v ls ie r f L T Hi Hr Hf) as (B & W & ->). fold q in W |- *.
  pose proof (way_unique order m q L3 t0 ls _ _ _ _ PO (meq_refl _ _) W (way_dark order m q ls Dk t0 _)) as M.
  rewrite (expect_meq _ _ _ _ _ (meq_refl _ _) M).
  pose proof (c55_vacuum_probability (st_n q) (st_th q) (st_dl q) order (type_of (st_nt q)) (st_r q) true (st_dm q) (st_E q) (total ls) 0 (v ie r) f PO Hf HE) as V.
  cbv zeta in V. rewrite Rminus_0_r in V. refine (eq_trans _ V). cbn [eval_flavor basis_of].
  pose proof (read_back (st_n q) BInter (vacuum q) (total ls) 0 (ini_state (st_n q) BFlavor (flavour order q) (v ie r)) (flavour order q f)) as X.
  cbn [back] in X. rewrite Rminus_0_r in X. rewrite ?Rminus_0_r. symmetry. exact X.
Qed.

(** ** A case: an exact surrounding for the vacuum, an object evolved there *)
Definition cell (n nr : nat) (F : nat -> nat -> mat) (k : nat) : R :=
  let k1 := (k / 2)%nat in let k2 := (k1 / n)%nat in let k3 := (k2 / n)%nat in
  let z := F (k3 / nr)%nat (k3 mod nr)%nat (k2 mod n)%nat (k1 mod n)%nat in
  if Nat.eqb (k mod 2) 0 then re z else im z.
Definition enc (n nr ne : nat) (F : nat -> nat -> mat) : list R := map (cell n nr F) (seq 0 (((ne * nr) * n) * n * 2)).
Definition dec1 (n nr : nat) (l : list R) (ie r : nat) : mat := fun i j =>
  mkC (nth ((((ie * nr + r) * n + i) * n + j) * 2 + 0) l 0) (nth ((((ie * nr + r) * n + i) * n + j) * 2 + 1) l 0).
Lemma digit a b n : (b < n)%nat -> ((a * n + b) / n = a)%nat /\ ((a * n + b) mod n = b)%nat.
Proof.
  intro H. split; [rewrite Nat.div_add_l, Nat.div_small; lia|]. rewrite Nat.add_comm, Nat.mod_add by lia. apply Nat.mod_small, H.
Qed.
Lemma digit_lt a b n N : (b < n)%nat -> (a < N)%nat -> (a * n + b < N * n)%nat.
Proof. nia. Qed.
Lemma dec_enc n nr ne F ie r : (ie < ne)%nat -> (r < nr)%nat -> meq n (dec1 n nr (enc n nr ne F) ie r) (F ie r).
Proof.
  intros Hi Hr i j I J. unfold dec1, enc.
  assert (K : forall c, (c < 2)%nat -> nth ((((ie * nr + r) * n + i) * n + j) * 2 + c)
    (map (cell n nr F) (seq 0 (((ne * nr) * n) * n * 2))) 0 = if Nat.eqb c 0 then re (F ie r i j) else im (F ie r i j)).
  { intros c Hc.
    assert (B : ((((ie * nr + r) * n + i) * n + j) * 2 + c < ((ne * nr) * n) * n * 2)%nat) by (repeat (apply digit_lt; [assumption|]); exact Hi).
    rewrite nth_indep with (d' := cell n nr F 0) by (rewrite map_length, seq_length; exact B).
    rewrite map_nth, seq_nth by exact B. rewrite Nat.add_0_l. unfold cell.
    destruct (digit ((((ie * nr + r) * n + i) * n + j)) c 2 Hc) as (-> & ->).
    destruct (digit (((ie * nr + r) * n + i)) j n J) as (-> & ->). destruct (digit (ie * nr + r) i n I) as (-> & ->).
    destruct (digit ie r nr Hr) as (-> & ->). reflexivity. }
  rewrite !K by lia. cbn. destruct (F ie r i j). reflexivity.
Qed.

Definition order3 : list (nat * nat) := [(0, 1); (0, 2); (1, 2)]%nat.
Definition empty : media := Media (MkConsts 1 1 1 1 1 1) (fun _ _ => 0) (fun _ _ => 1 / 2).
Definition vac_env : env :=
  Env (fun s dt => ([sq_t (q_sq s) + dt], true, 0,
        enc (q_numneu s) (q_nrhos s) (q_ne s) (fun ie r =>
          match basis_of (o_basis (q_opts s)) with
          | BMass => evolve (stored_H s ie) (- dt) (matrix dec1 s (sq_state (q_sq s)) ie r)
          | _ => matrix dec1 s (sq_state (q_sq s)) ie r end)))
      (fun h => h) (fun n => n)
      (fun s v b => enc (q_numneu s) (q_nrhos s) (q_ne s) (fun ie r => ini_state (q_numneu s) (basis_of b) (stored_P order3 s r) (v ie r)))
      (fun s => sq_state (q_sq s)) (fun s _ => sq_state (q_sq s)) None (fun _ => true) 6 1 1.

Lemma vac_exact : exact order3 empty dec1 vac_env.
Proof.
  constructor.
  - intros s v b ie r Hi Hr. unfold vac_env. cbn [e_mk]. unfold matrix. exact (dec_enc _ _ _ _ ie r Hi Hr).
  - intros s dt ts t' st b off SV D B O OS HO OI SR ie r Hi Hr. unfold vac_env in SV. cbn [e_solve] in SV. injection SV as _ _ <-.
    set (A0 := matrix dec1 s (sq_state (q_sq s)) ie r). set (n := q_numneu s).
    assert (PZ : forall x, meq n (hi (basis_of (o_basis (q_opts s))) (stored_H s ie) (cc_at empty (q_nt s) r b (x - off)) (nc_at empty (q_nt s) r b (x - off)) (used_P order3 s ie r x))
       (match basis_of (o_basis (q_opts s)) with BMass => stored_H s ie | _ => mzero end)).
    { intro x. destruct (dark_pot empty (q_nt s) r b (x - off) eq_refl) as (-> & ->). unfold hi.
      destruct (basis_of (o_basis (q_opts s))); try apply pot_zero.
      eapply meq_trans; [apply mplus_meq; [apply pot_zero|apply meq_refl]|]. intros i j _ _. unfold mplus, mzero. ring. }
    exists (fun x => match basis_of (o_basis (q_opts s)) with BMass => evolve (stored_H s ie) (- (x - sq_t (q_sq s))) A0 | _ => A0 end).
    split; [|split].
    + intros x Hx. unfold slope. eapply FlavorEqn.mderiv_meq;
        [apply meq_sym; eapply meq_trans; [apply rhs_zero|apply coherent_meq; [apply PZ|apply meq_refl]]|].
      destruct (basis_of (o_basis (q_opts s))).
      * eapply FlavorEqn.mderiv_meq; [apply meq_sym, coherent_zero|apply mderiv_const].
      * eapply FlavorEqn.mderiv_meq; [|apply (back_to_mass n (stored_H s ie) mzero (fun _ => A0) (sq_t (q_sq s)) x); [apply h0_diag_real|]].
        -- apply coherent_meq; [|apply meq_refl]. intros i j _ _. unfold mplus, mzero. ring.
        -- eapply FlavorEqn.mderiv_meq; [|apply mderiv_const]. apply meq_sym. eapply meq_trans; [apply coherent_meq; [apply evolve_zero|apply meq_refl]|apply coherent_zero].
      * eapply FlavorEqn.mderiv_meq; [apply meq_sym, coherent_zero|apply mderiv_const].
    + destruct (basis_of (o_basis (q_opts s))); try apply meq_refl. exact (back_zero n BInter (stored_H s ie) _ A0 (Rminus_diag_eq _ _ eq_refl)).
    + unfold matrix. eapply meq_trans; [exact (dec_enc _ _ _ _ ie r Hi Hr)|]. destruct (basis_of (o_basis (q_opts s))); try apply meq_refl.
      replace (sq_t (q_sq s) + dt - sq_t (q_sq s)) with dt by ring. apply meq_refl.
Qed.

(** the life: made, medium, trajectory, fluxes, evolved *)
Definition fluxes (ie r j : nat) : R := INR (j + r + 1).
Example c94_case : exists s0 h s, lived vac_env order3 empty dec1 s0 h s /\ travelled h 1 StateModel.BFlavor fluxes [Leg (Body 1 true) 0 4] /\
  q_numneu s = 3%nat /\ q_ne s = 2%nat /\ q_nrhos s = 2%nat.
Proof.
  destruct (ready_exists vac_env [1; 2] 3 false None (Body 1 true) (Track 1 5) fluxes) as (s0 & h & s & Mk & H & Rd & C & D);
    [lia|cbn; lia|discriminate|].
  pose proof (ready_able _ _ _ _ _ _ _ Rd) as A.
  destruct (able_evolve vac_env _ _ _ _ (fun _ _ => eq_refl) A) as (s' & ev & E & _ & _).
  assert (H' : history vac_env s0 ((CEvolve, Done, ev, s') :: h) s') by (apply h_call with s; [exact H|exact E|discriminate]).
  pose proof Rd as (Rr & _). unfold rest in Rr. injection Rr as R1 R2 R3 R4 R5 R6 R7 R8 R9 R10 R11 R12 R13 R14 R15 R16.
  pose proof (core_exec vac_env CEvolve eq_refl eq_refl s) as K. rewrite E in K. unfold core_keeps, keeps, core in K. cbn in K. injection K as K1 K2 K3 K4 _ _ _ _ _ _ _.
  exists s0, ((CEvolve, Done, ev, s') :: h), s'.
  assert (OI : o_int (q_opts s0) = false).
  { pose proof (made_spec vac_env true s0 Mk) as X. clear - Mk H R7 C.
    destruct h as [|[[[c1 r1] e1] x1] [|[[[c2 r2] e2] x2] [|[[[c3 r3] e3] x3] [|]]]]; try discriminate C. cbn in C. injection C as -> -> ->.
    inversion H as [|? y1 ? ? ? ? Ha Ea _]; subst. inversion Ha as [|? y2 ? ? ? ? Hb Eb _]; subst. inversion Hb as [|? y3 ? ? ? ? Hc Ec _]; subst. inversion Hc; subst.
    pose proof (ag_wf _ _ _ _ (history_agrees _ _ _ _ _ Mk Ha)) as W.
    pose proof (opts_frame vac_env (CInit3 2 2 3 fluxes StateModel.BFlavor) y1 W eq_refl eq_refl) as O1. cbn [length] in Ea. rewrite Ea in O1. cbn [out_obj] in O1.
    change (q_opts s = q_opts y1) in O1.
    cbn in Eb. injection Eb as _ <- _. cbn in Ec. injection Ec as _ <- _. cbn in O1. rewrite <- O1, R7. reflexivity. }
  assert (SH : exists ev1 ev2 ev3 x1 x2 x3, h = [(CInit3 2 2 3 fluxes StateModel.BFlavor, Done, ev1, x1); (CTrack (Some (Track 1 5)), Done, ev2, x2); (CBody (Some (Body 1 true)), Done, ev3, x3)] /\ x1 = s).
  { clear - C D H. destruct h as [|[[[c1 r1] e1] x1] [|[[[c2 r2] e2] x2] [|[[[c3 r3] e3] x3] [|]]]]; try discriminate C. cbn in C. injection C as -> -> ->.
    inversion D as [|? ? D1 D']; subst. inversion D' as [|? ? D2 D'']; subst. inversion D'' as [|? ? D3 _]; subst. cbn in D1, D2, D3. subst.
    exists e1, e2, e3, x1, x2, x3. split; [reflexivity|]. inversion H; reflexivity. }
  destruct SH as (ev1 & ev2 & ev3 & x1 & x2 & x3 & -> & ->).
  assert (T1 : sq_t (q_sq s) = 1) by (rewrite R6; reflexivity).
  split; [|split; [|split; [|split]]]; try congruence.
  - split; [exists true; exact Mk|]. split; [exact H'|]. split; [exact OI|]. split.
    + intros en I. destruct I as [<-|[<-|[<-|[<-|[]]]]]; exact I.
    + split; [reflexivity|]. split; [exact vac_exact|]. rewrite K2, R2. repeat (apply Forall_cons; [cbn; lia|]). apply Forall_nil.
  - replace [Leg (Body 1 true) 0 4] with ([] ++ [Leg (Body 1 true) (sq_t (q_sq s) - tr_ini (Track 1 5)) (tr_fin (Track 1 5) - tr_ini (Track 1 5))]) by (rewrite T1; cbn; do 2 f_equal; ring).
    apply tv_evolve.
    + refine (tv_init _ _ _ _ (Track 1 5) _ _ _ _ _); reflexivity.
    + reflexivity.
    + reflexivity.
    + cbn. lra.
Qed.

(** ** Set_Basis

    nuSQuIDS.cpp:2896-2900 changes the basis in which the state is understood
    and neither converts the state nor asks for a new one. *)

(** the object: one flavour put in, half an oscillation done *)
Definition turned_life : list call :=
  [CEvolve; CInit3 2 2 3 (fun _ _ => v_ex) StateModel.BFlavor; CDm 2 0; CDm 1 (2 * PI);
   CAngle 1 2 0; CAngle 0 2 0; CAngle 0 1 (PI / 4); CTrack (Some (Track 0 1)); CBody (Some (Body 1 true))].
Lemma half_turn : exists s0 h s, lived vac_env order3 empty dec1 s0 h s /\ map (fun en => fst (fst (fst en))) h = turned_life /\
  Forall (fun en => snd (fst (fst en)) = Done) h /\ travelled h 0 StateModel.BFlavor (fun _ _ => v_ex) [Leg (Body 1 true) 0 1] /\
  q_numneu s = 3%nat /\ q_ne s = 2%nat /\ q_nrhos s = 2%nat /\ q_nt s = IntModel.Both /\ q_E s = [1; 2] /\ o_basis (q_opts s) = StateModel.BInter /\
  p_dm (q_pars s) 1%nat = 2 * PI /\ p_dm (q_pars s) 2%nat = 0 /\
  p_angle (q_pars s) 0%nat 1%nat = PI / 4 /\ p_angle (q_pars s) 0%nat 2%nat = 0 /\ p_angle (q_pars s) 1%nat 2%nat = 0 /\
  (forall i j, p_phase (q_pars s) i j = 0) /\ f_state (q_flags s) = true.
Proof.
  destruct (make_multi_ok vac_env [1; 2] 3 IntModel.Both false None) as (s0 & M0 & R0); [lia|cbn; lia|discriminate|].
  cbn [nt_eqb length] in R0. unfold rest in R0. injection R0 as A1 A2 A3 A4 A5 A6 A7 A8 A9 A10 A11 A12 A13 A14 A15 A16.
  pose proof (made_multi vac_env [1; 2] 3 IntModel.Both false None s0 [] M0) as Mk.
  pose proof (nw_phase _ _ _ (made_spec _ _ _ Mk)) as Ph.
  set (s1 := put_f_body true (set_q_body (Some (Body 1 true)) s0)).
  set (s2 := put_f_track true (set_q_track (Some (Track 0 1)) (set_q_x 0 (set_q_offset (Some (sq_t (q_sq s1) - 0)) s1)))).
  set (g := fun i j v s => put_f_state false (put_p_angle (upd2 (p_angle (q_pars s)) i j v) s)).
  set (d := fun i v s => put_f_state false (put_p_dm (upd1 (p_dm (q_pars s)) i v) s)).
  set (s3 := g 0%nat 1%nat (PI / 4) s2). set (s4 := g 0%nat 2%nat 0 s3). set (s5 := g 1%nat 2%nat 0 s4).
  set (s6 := d 1%nat (2 * PI) s5). set (s7 := d 2%nat 0 s6).
  assert (E1 : exec vac_env (CBody (Some (Body 1 true))) s0 = (Done, s1, [])) by reflexivity.
  assert (E2 : exec vac_env (CTrack (Some (Track 0 1))) s1 = (Done, s2, [])) by reflexivity.
  assert (E3 : exec vac_env (CAngle 0 1 (PI / 4)) s2 = (Done, s3, [])) by (apply angle_ok; cbn; lia).
  assert (E4 : exec vac_env (CAngle 0 2 0) s3 = (Done, s4, [])) by (apply angle_ok; cbn; lia).
  assert (E5 : exec vac_env (CAngle 1 2 0) s4 = (Done, s5, [])) by (apply angle_ok; cbn; lia).
  assert (E6 : exec vac_env (CDm 1 (2 * PI)) s5 = (Done, s6, [])) by (apply dm_ok; cbn; lia).
  assert (E7 : exec vac_env (CDm 2 0) s6 = (Done, s7, [])) by (apply dm_ok; cbn; lia).
  destruct (init3_ok vac_env s7 (Track 0 1) (fun _ _ => v_ex) 2 3) as (s8 & E8 & S8); try assumption; try reflexivity; try (cbn; lia).
  destruct (able_evolve vac_env (Body 1 true) (Track 0 1) 0 s8 (fun _ _ => eq_refl)) as (s9 & ev & E9 & A9' & _).
  { constructor; rewrite ?(ss_body _ _ _ _ S8), ?(ss_track _ _ _ _ S8), ?(ss_offset _ _ _ _ S8), ?(ss_opts _ _ _ _ S8); try reflexivity.
    - unfold has_all. rewrite (ss_flags _ _ _ _ S8). cbn. rewrite ?A15, ?A16. reflexivity.
    - cbn. rewrite A7. reflexivity.
    - cbn. rewrite A7. reflexivity.
    - right. cbn. rewrite A7. reflexivity. }
  pose proof (core_exec vac_env CEvolve eq_refl eq_refl s8) as K. rewrite E9 in K. unfold core_keeps, keeps, core in K. cbn in K.
  injection K as K1 K2 K3 K4 K5 K6 K7 K8 K9 K10 K11.
  set (h8 := [(CInit3 2 2 3 (fun _ _ => v_ex) StateModel.BFlavor, Done, @nil event, s8); (CDm 2 0, Done, [], s7); (CDm 1 (2 * PI), Done, [], s6);
    (CAngle 1 2 0, Done, [], s5); (CAngle 0 2 0, Done, [], s4); (CAngle 0 1 (PI / 4), Done, [], s3); (CTrack (Some (Track 0 1)), Done, [], s2); (CBody (Some (Body 1 true)), Done, [], s1)]).
  assert (H8 : history vac_env s0 h8 s8).
  { unfold h8. repeat (eapply h_call; [|eassumption|discriminate]). apply h_nil. }
  assert (H9 : history vac_env s0 ((CEvolve, Done, ev, s9) :: h8) s9) by (apply h_call with s8; [exact H8|exact E9|discriminate]).
  assert (N9 : ordinary ((CEvolve, Done, ev, s9) :: h8)).
  { intros en I. cbn in I. repeat destruct I as [<-|I]; try exact Logic.I. contradiction. }
  assert (O9 : o_basis (q_opts s9) = StateModel.BInter).
  { destruct (num_evolve vac_env s8) as (_ & X1).
    - rewrite (ss_opts _ _ _ _ S8). cbn. rewrite A7. reflexivity.
    - rewrite E9 in X1. cbn in X1. rewrite X1, (ss_opts _ _ _ _ S8). cbn. rewrite A7. reflexivity. }
  exists s0, ((CEvolve, Done, ev, s9) :: h8), s9.
  split; [|split; [reflexivity|split; [repeat (apply Forall_cons; [reflexivity|]); apply Forall_nil|split]]].
  - split; [exists true; exact Mk|]. split; [exact H9|]. split; [rewrite A7; reflexivity|]. split; [exact N9|].
    split; [reflexivity|]. split; [exact vac_exact|]. rewrite K2, (ss_numneu _ _ _ _ S8). cbn. rewrite A2. repeat (apply Forall_cons; [cbn; lia|]). apply Forall_nil.
  - pose proof (ss_t _ _ _ _ S8) as T8. cbn [tr_ini] in T8.
    replace [Leg (Body 1 true) 0 1] with ([] ++ [Leg (Body 1 true) (sq_t (q_sq s8) - tr_ini (Track 0 1)) (tr_fin (Track 0 1) - tr_ini (Track 0 1))]) by (rewrite T8; cbn; do 2 f_equal; ring).
    apply tv_evolve; try reflexivity; [|cbn; lra]. refine (tv_init _ _ _ _ (Track 0 1) _ _ _ _ _); reflexivity.
  - rewrite K1, K2, K3, K4, K5, K6, O9, (ss_nt _ _ _ _ S8), (ss_numneu _ _ _ _ S8), (ss_ne _ _ _ _ S8), (ss_nrhos _ _ _ _ S8), (ss_E _ _ _ _ S8), (ss_angle _ _ _ _ S8), (ss_dm _ _ _ _ S8).
    repeat split; try assumption; try reflexivity.
    + intros i j. rewrite (ss_phase _ _ _ _ S8). exact (Ph i j).
    + pose proof (ab_all _ _ _ _ A9') as X. unfold has_all in X. destruct (f_state (q_flags s9)); [reflexivity|]. rewrite ?andb_false_r in X. discriminate X.
Qed.

(** Nothing of electron flavour is left; after Set_Basis(mass) all of it is read
    again, the object still saying that its state is valid. *)
Theorem c94_basis_refuted : exists s0 h s s', lived vac_env order3 empty dec1 s0 h s /\
  travelled h 0 StateModel.BFlavor (fun _ _ => v_ex) [Leg (Body 1 true) 0 1] /\
  exec vac_env (CBasis StateModel.BMass) s = (Done, s', []) /\ settings_of s' 0 0 = settings_of s 0 0 /\ f_state (q_flags s') = true /\
  content order3 dec1 s 0 0 0 = 0 /\ content order3 dec1 s' 0 0 0 = 1.
Proof.
  destruct half_turn as (s0 & h & s & L & _ & _ & T & N & NE & NR & NT & EE & OB & D1 & D2 & G1 & G2 & G3 & PH & FS).
  exists s0, h, s, (put_o_basis StateModel.BMass s). split; [exact L|]. split; [exact T|]. split; [reflexivity|]. split; [reflexivity|]. split; [exact FS|].
  assert (Dk : dark empty [Leg (Body 1 true) 0 1]) by (apply Forall_cons; [split; [cbn; lra|reflexivity]|apply Forall_nil]).
  assert (OO : Forall (fun p => (fst p < snd p < q_numneu s)%nat) order3) by apply L. pose proof (ordered_ok _ _ OO) as PO.
  pose proof (lived_min _ _ _ _ _ _ _ L) as L3. set (q := settings_of s 0 0).
  split.
  - rewrite (c94_vacuum _ _ _ _ _ _ _ _ _ _ 0%nat 0%nat 0%nat L T Dk) by (rewrite ?EE, ?N; cbn; try lia; lra).
    rewrite N, EE, NT. cbn [nth rsum v_ex type_of].
    replace (fixed_phases FlavorModel.Both 0 (p_phase (q_pars s))) with (fun _ _ : nat => 0).
    2:{ apply FunctionalExtensionality.functional_extensionality. intro i. apply FunctionalExtensionality.functional_extensionality. intro j. cbn. symmetry. apply PH. }
    replace (mixing 3 (p_angle (q_pars s)) (fun _ _ => 0) order3) with (mixing 3 th_ex (fun _ _ => 0) order_ex).
    2:{ apply mix_ext; [repeat (apply Forall_cons; [cbn; lia|]); apply Forall_nil|]. intros i j Hij. split; [|reflexivity].
        destruct i as [|[|i]]; destruct j as [|[|[|j]]]; try lia; cbn; congruence. }
    assert (SP : forall j, osc_prob 3 (mixing 3 th_ex (fun _ _ => 0) order_ex) (splitting (p_dm (q_pars s)) 1) (total [Leg (Body 1 true) 0 1]) j 0
       = osc_prob 3 (mixing 3 th_ex (fun _ _ => 0) order_ex) (splitting ediff_ex 1) 1 j 0).
    { intro j. unfold osc_prob. f_equal. apply csum_ext. intros a Ha. replace (total _) with 1 by (cbn; ring).
      replace (splitting (p_dm (q_pars s)) 1 a) with (splitting ediff_ex 1 a); [reflexivity|].
      destruct a as [|[|[|a]]]; try lia; cbn; rewrite ?D1, ?D2; reflexivity. }
    rewrite !SP, osc_prob_ex by reflexivity. rewrite Rmult_1_r, cos_PI. field.
  - destruct (lived_read _ _ _ _ _ _ _ _ _ _ _ 0%nat L T) as ([F O T0 TT W] & RH).
    destruct (W 0%nat 0%nat) as (B & WB & EB); [lia|lia|]. fold q in WB. rewrite OB in EB. cbn [basis_of back] in EB.
    pose proof (way_unique order3 empty q L3 0 _ _ _ _ _ PO (meq_refl _ _) WB (way_dark order3 empty q _ Dk 0 _)) as M.
    set (A := ini_state (q_numneu s) (basis_of StateModel.BFlavor) (flavour order3 q) v_ex) in *.
    assert (HV : stored_H s 0 = vacuum q) by (exact (stored_vacuum order3 empty s 0 0 (Leg (Body 1 true) 0 1) F O)).
    assert (ST : meq (q_numneu s) (matrix dec1 s (sq_state (q_sq s)) 0 0) A).
    { set (X := matrix dec1 s (sq_state (q_sq s)) 0 0) in *. rewrite HV in EB. pose proof (meq_trans _ _ _ _ EB M) as Z. rewrite TT in Z.
      intros i j Hi Hj. specialize (Z i j Hi Hj). unfold evolve in Z. replace (0 + total [Leg (Body 1 true) 0 1] - 0) with (total [Leg (Body 1 true) 0 1]) in Z by ring.
      set (w := (re (vacuum q i i) - re (vacuum q j j)) * - total [Leg (Body 1 true) 0 1]) in Z.
      assert (CW : (cexp (- w) * cexp w)%C = c1) by (rewrite cexp_plus; replace (- w + w) with 0 by ring; apply cexp_0).
      transitivity ((cexp (- w) * cexp w) * X i j)%C; [rewrite CW; ring|]. transitivity (cexp (- w) * (cexp w * X i j))%C; [ring|].
      rewrite Z. transitivity ((cexp (- w) * cexp w) * A i j)%C; [ring|]. rewrite CW. ring. }
    assert (PP : forall f, (f < q_numneu s)%nat -> stored_P order3 s 0 f = flavour order3 q f) by (intros f Hf; apply stored_flavour; try assumption; lia).
    unfold content. change (q_numneu (put_o_basis StateModel.BMass s)) with (q_numneu s).
    cbn [put_o_basis set_q_opts set_o_basis q_opts o_basis basis_of eval_flavor].
    change (stored_P order3 (put_o_basis StateModel.BMass s) 0 0) with (stored_P order3 s 0 0).
    change (matrix dec1 (put_o_basis StateModel.BMass s) (sq_state (q_sq (put_o_basis StateModel.BMass s))) 0 0) with (matrix dec1 s (sq_state (q_sq s)) 0 0).
    rewrite PP by lia. rewrite (expect_meq _ _ _ _ _ (meq_refl _ _) ST). unfold A. rewrite N. cbn [basis_of].
    pose proof (c55_flavor_readback 3 (st_th q) (st_dl q) order3 (type_of (st_nt q)) (st_r q) BMass mzero 0 v_ex 0) as Q.
    cbn [eval_flavor] in Q. unfold flavour. change (st_n q) with (q_numneu s). rewrite N. rewrite Q; [reflexivity|rewrite <- N; exact PO|lia].
Qed.

Print Assumptions c94_reading.
Print Assumptions c94_mass_reading.
Print Assumptions c94_same_answer.
Print Assumptions c94_stop.
Print Assumptions c94_total.
Print Assumptions c94_bounds.
Print Assumptions c94_start.
Print Assumptions c94_vacuum.
Print Assumptions c94_basis_refuted.
