(** A life C96 is about: two angles, two energies, interactions on, set and evolved. *)
From Coq Require Import Reals List Arith Bool Lia Lra.
From Verif Require Import Err XsProofs IntModel XsModel StateModel StateProofs StateHistory StateLaws StateReady StateFrames StateProps AtmModel AtmProofs AtmProps.
From Verif Require Import CMatrix FlavorModel FlavorEqn FlavorEqnProps SuperModel TransProofs EndModel EndProps FullModel FullSpec FullProofs FullProps FullExist FullExistProps.
From Verif Require Import AtmEvalModel AtmEvalProofs AtmLifeModel AtmLifeSpec AtmLifeProofs AtmLifeProofs2 AtmLifeProps.
Import ListNotations.
Local Open Scope R_scope.

(** a node of the ensemble ready to be evolved *)
Record poised (s : nus) : Prop := {
  po_fit : tables_fit s; po_body : q_body s = Some earth; po_track : exists t, q_track s = Some t; po_off : q_offset s <> None;
  po_all : has_all s = true; po_int : o_int (q_opts s) = true; po_src : o_src (q_opts s) = false; po_pos : o_pos (q_opts s) = false;
  po_tau : o_tau (q_opts s) = false; po_gr : o_gr (q_opts s) = false; po_num : sq_num (q_sq s) = true; po_dim : q_numneu s = 3%nat; po_kinds : kinds_ok s = true }.

Lemma renv_lib : lib_ok (e_default renv).
Proof. intros x X. injection X as <-. reflexivity. Qed.

Lemma poised_ints s s' : but_ints s' = but_ints s -> tables_fit s' -> poised s -> poised s'.
Proof.
  intros B F [P1 P2 P3 P4 P5 P6 P7 P8 P9 P10 P11 P12 P13].
  assert (K : forall A (V : nus -> A), (forall s, V s = V (but_ints s)) -> V s' = V s) by (intros A V H; rewrite (H s'), (H s), B; reflexivity).
  constructor; [exact F|rewrite (K _ q_body)|rewrite (K _ q_track)|rewrite (K _ q_offset)|rewrite (K _ has_all)|rewrite (K _ (fun s => o_int (q_opts s)))
    |rewrite (K _ (fun s => o_src (q_opts s)))|rewrite (K _ (fun s => o_pos (q_opts s)))|rewrite (K _ (fun s => o_tau (q_opts s)))|rewrite (K _ (fun s => o_gr (q_opts s)))
    |rewrite (K _ (fun s => sq_num (q_sq s)))|rewrite (K _ q_numneu)|rewrite (K _ kinds_ok)]; try assumption; reflexivity.
Qed.

Lemma poised_init s : poised s -> exists s', init_interactions renv s = (Done, s', []) /\ poised s' /\ i_tabs (q_ints s') <> None.
Proof.
  intro P. destruct (init_fit renv s (po_fit s P) renv_lib ltac:(discriminate)) as [(_ & X)|(s' & E & F & D & B)]; [discriminate X|].
  exists s'. split; [exact E|]. split; [exact (poised_ints s s' B F P)|]. apply (tf_sized s' F D).
Qed.

Lemma poised_tabs s t : poised s -> tb_fill t = TFull -> poised (put_i_tabs (Some t) s).
Proof.
  intros P FT. apply (poised_ints s); [reflexivity| |exact P]. destruct (po_fit s P) as [F1 F2 F3]. constructor.
  - exact F1.
  - intros t' X. injection X as <-. split; [exact FT|]. unfold gr_on. cbn. rewrite (po_gr s P). discriminate.
  - intro D. split; [discriminate|]. intro OI. destruct (F3 D) as (_ & SZ). exact (SZ OI).
Qed.

(** all nodes poised: the tables are shared out, all nodes still poised *)
Lemma poised_share a : a_nodes a <> [] -> Forall poised (a_nodes a) -> exists a1, share_tables renv a = (Done, a1) /\ Forall poised (a_nodes a1) /\ a_threads a1 = a_threads a.
Proof.
  intros NE F. unfold share_tables. destruct (a_nodes a) as [|s0 rest] eqn:AN; [congruence|]. inversion F as [|? ? F0 FR]; subst.
  rewrite (po_int _ F0). destruct (poised_init s0 F0) as (s0' & E0 & P0 & T0). rewrite E0.
  destruct (i_tabs (q_ints s0')) as [t|] eqn:T; [|congruence].
  assert (FT : tb_fill t = TFull) by (apply (tf_full s0' (po_fit _ P0)); exact T).
  assert (K : forall s, poised s -> exists s', (modify (put_i_tabs (Some t)) ;; init_interactions renv)%m s = (Done, s', []) /\ poised s').
  { intros s P. rewrite seq_eq. unfold modify. destruct (poised_init _ (poised_tabs s t P FT)) as (s' & E & P' & _). exists s'. rewrite E. split; [reflexivity|exact P']. }
  assert (FA : forall s, In s (s0' :: rest) -> poised s) by (intros s [<-|H]; [exact P0|rewrite Forall_forall in FR; exact (FR s H)]).
  destruct (each_done_at poised (s0' :: rest) (fun _ => (modify (put_i_tabs (Some t)) ;; init_interactions renv)%m) 0) as (D & Q).
  - intros j s H. destruct (K s (FA s H)) as (s' & -> & _). reflexivity.
  - intros j s H. destruct (K s (FA s H)) as (s' & -> & P). exact P.
  - destruct (AtmModel.each _ 0 (s0' :: rest)) as [r l]. cbn in D, Q. subst r. eexists. split; [reflexivity|]. split; [exact Q|reflexivity].
Qed.

Lemma solves s s1 hh dt : poised s -> but_ints s1 = but_ints (put_sq_h hh s) -> exists l, e_solve renv s1 dt = ([sq_t (q_sq s1) + dt], true, 0, l).
Proof.
  intros P BI. cbn [renv steady_env e_solve]. unfold solver.
  assert (Q1 : q_body s1 = Some earth) by (change (q_body s1) with (q_body (but_ints s1)); rewrite BI; exact (po_body s P)).
  assert (Q2 : q_offset s1 = q_offset s) by (change (q_offset s1) with (q_offset (but_ints s1)); rewrite BI; reflexivity).
  assert (Q3 : q_numneu s1 = 3%nat) by (change (q_numneu s1) with (q_numneu (but_ints s1)); rewrite BI; exact (po_dim s P)).
  assert (Q4 : o_tau (q_opts s1) = false) by (change (o_tau (q_opts s1)) with (o_tau (q_opts (but_ints s1))); rewrite BI; exact (po_tau s P)).
  assert (Q5 : kinds_ok s1 = true).
  { unfold kinds_ok. change (q_nt s1) with (q_nt (but_ints s1)). change (q_nrhos s1) with (q_nrhos (but_ints s1)). rewrite BI. exact (po_kinds s P). }
  rewrite Q1, Q2, Q5. destruct (q_offset s) as [off|] eqn:O; [|exfalso; exact (po_off s P O)].
  destruct (le_dec 3 (q_numneu s1)) as [X|X]; [|lia]. destruct (bool_dec (o_tau (q_opts s1)) false) as [Q|Q]; [|congruence].
  eexists. reflexivity.
Qed.

Lemma poised_evolve s : poised s -> out_res (evolve_state renv s) = Done.
Proof.
  intro P. destruct (po_track s P) as (t & T).
  destruct (evolve_ready renv s earth t (po_fit s P) renv_lib) as (s' & ev & tb & E & _); try reflexivity; try apply P; try discriminate; try exact T.
  - intros s1 hh dt BI. destruct (solves s s1 hh dt P BI) as (l & ->). reflexivity.
  - intros s1 hh dt BI. destruct (solves s s1 hh dt P BI) as (l & ->). discriminate.
  - cbn [exec] in E. rewrite E. reflexivity.
Qed.

Lemma poised_done a : a_guard a = Done -> a_threads a = Some 1%nat -> a_nodes a <> [] -> Forall poised (a_nodes a) -> fst (aexec renv AEvolve a) = Done.
Proof.
  intros G T NE F. cbn [aexec]. unfold a_evolve. rewrite G. destruct (poised_share a NE F) as (a1 & -> & F1 & T1). rewrite T1, T. cbn [Nat.eqb]. unfold evolve_serial.
  destruct (each_done_at (fun _ => True) (a_nodes a1) (fun _ => evolve_state renv) 0) as (D & _); [|auto|].
  - intros _ s H. apply poised_evolve. rewrite Forall_forall in F1. exact (F1 s H).
  - destruct (AtmModel.each _ 0 _) as [r l]. exact D.
Qed.

Definition showers (i ie f : nat) : R := INR (i + ie + f).
Definition ways (b : body) (c : R) : track := AtmProps.path c.

Lemma make_earth e tr g b cos E n t i x a0 : make_atm e tr g b cos E n t i x = (Done, Some a0) -> a_earth a0 = Some b.
Proof. unfold make_atm. destruct (make_nodes _ _ _ _ _ _ _ _ _ _ _ _) as [r l]. destruct r; try discriminate. destruct l as [|s0 l]; [discriminate|]. intro H. injection H as <-. reflexivity. Qed.

Definition first : list (acall * res) := [(AInit3 2 2 3 showers StateModel.BFlavor, Done)].
Lemma first_by : by_ensemble first. Proof. intros c r [X|[]]; injection X as <- <-; reflexivity. Qed.
Lemma first_osc : aoscillating first. Proof. intros c r [X|[]]; injection X as <- <-; exact Logic.I. Qed.

Definition built (a0 : atm) : Prop := make_atm renv (ways earth) pow_grow earth [-1; 1] [1; 2] 3 Nu true None = (Done, Some a0).
Lemma built_held a0 h a i s : built a0 -> ahist renv a0 h a -> by_ensemble h -> aoscillating h -> nth_error (a_nodes a) i = Some s ->
  fine renv (path_of (ways earth) [-1; 1] i) s /\ q_numneu s = 3%nat /\ q_nrhos s = 1%nat.
Proof.
  intros Mk H B O Is. destruct (hist_held renv (ways earth) pow_grow earth [-1; 1] [1; 2] 3 Nu true None a0 Mk eq_refl h a H B O i s Is) as (X & _ & BO).
  unfold bounds in BO. injection BO as BN BE BL BR. auto.
Qed.

Lemma begun_case : exists a0 a1, built a0 /\ aexec renv (AInit3 2 2 3 showers StateModel.BFlavor) a0 = (Done, a1) /\
  a_guard a1 = Done /\ a_threads a1 = Some 1%nat /\ a_nodes a1 <> [] /\ Forall poised (a_nodes a1) /\ nodes_ok renv (a_nodes a1) /\ a_earth a1 = Some earth.
Proof.
  destruct (atm_made_up renv (ways earth) pow_grow earth [-1; 1] [1; 2] 3 true None showers) as (a0 & a1 & Mk & I & A1 & A2 & A3 & LL & F & N & Q & _);
    [lia|cbn; lia|discriminate|discriminate|].
  cbn [length] in I. exists a0, a1. split; [exact Mk|]. split; [exact I|]. split; [unfold a_guard; rewrite A1, A2; reflexivity|]. split; [exact A3|].
  split; [intro X; rewrite X in LL; discriminate LL|]. split; [|split; [exact N|]].
  - assert (H1 : ahist renv a0 first a1) by (econstructor; [constructor|exact I|discriminate]).
    apply Forall_forall. intros s Hs. rewrite Forall_forall in F. destruct (F s Hs) as (t & [U1 U2 U3 U4 U5 U6 U7 U8 U9 U10 U11 U12]).
    apply In_nth_error in Hs. destruct Hs as (i & Is). destruct (built_held a0 first a1 i s Mk H1 first_by first_osc Is) as (FI & BN & BR).
    constructor; try assumption; try congruence; eauto.
    + constructor; [rewrite U10; intros x X; discriminate X|rewrite U11; intros x X; discriminate X|rewrite U12; discriminate].
    + apply FI.
    + unfold kinds_ok. destruct (fi_shapes _ _ _ FI) as (X1 & X2 & _). rewrite BR. destruct (q_nt s) eqn:NT; try reflexivity. specialize (X1 eq_refl). congruence.
  - pose proof (aexec_earth renv (AInit3 2 2 3 showers StateModel.BFlavor) a0) as Y. rewrite I in Y. cbn in Y. rewrite Y.
    exact (make_earth _ _ _ _ _ _ _ _ _ _ _ Mk).
Qed.

Lemma sound_case a l : sound_all rock ones_tab a l.
Proof.
  intros i gs _ SG. induction SG as [|a3 g l gs (s1 & b & t & _ & _ & _ & ->) SG IH]; [constructor|]. constructor; [|exact IH].
  split; [intro p; cbn; lra|]. cbn [stage_of sg_tab]. destruct (i_tabs (q_ints s1)); constructor; intros; cbn; lra.
Qed.

Definition both : list (acall * res) := (AEvolve, Done) :: first.
Lemma lived_case a0 a1 a2 : built a0 -> aexec renv (AInit3 2 2 3 showers StateModel.BFlavor) a0 = (Done, a1) -> aexec renv AEvolve a1 = (Done, a2) ->
  lived_atm order3 rock glow ones_tab ways renv hmat hdot hdec earth [-1; 1] [1; 2] 3 a0 both a2.
Proof.
  intros Mk I EV. split; [exists pow_grow, Nu, true, None; exact Mk|].
  split; [econstructor; [econstructor; [constructor|exact I|discriminate]|exact EV|discriminate]|].
  split; [intros c r [X|X]; [injection X as <- <-; reflexivity|exact (first_by c r X)]|].
  split; [intros c r [X|X]; [injection X as <- <-; exact Logic.I|exact (first_osc c r X)]|]. split; [reflexivity|]. split; [exact rock_good|]. split; [exact hmat_repr|].
  split; [exact renv_exact|]. split; [repeat (apply Forall_cons; [cbn; lia|]); apply Forall_nil|].
  intros c [<-|[<-|[]]]; cbn; lra.
Qed.

Lemma crossed_case a0 a1 a2 : aexec renv (AInit3 2 2 3 showers StateModel.BFlavor) a0 = (Done, a1) -> aexec renv AEvolve a1 = (Done, a2) ->
  a_threads a1 = Some 1%nat -> a_earth a1 = Some earth -> crossed renv a0 both StateModel.BFlavor (fun i ie _ f => showers i ie f) ([] ++ [after renv a0 both]).
Proof.
  intros I EV A3 EA. assert (AF : after renv a0 first = a1) by (cbn [first after]; rewrite I; reflexivity).
  apply cr_evolve.
  - apply cr_put with (c := AInit3 2 2 3 showers StateModel.BFlavor); reflexivity.
  - fold first. rewrite AF, EA. discriminate.
  - fold first. rewrite AF. assert (W1 : with_threads 1 a1 = a1) by (clear -A3; destruct a1; cbn in A3 |- *; rewrite A3; reflexivity). rewrite W1, EV. reflexivity.
Qed.

Lemma two_up x y : x < y -> increasing [x; y].
Proof. intros H i j Hij Hj. cbn in Hj. replace j with 1%nat by lia. replace i with 0%nat by lia. exact H. Qed.

Example c96_case : exists a0 h a l, lived_atm order3 rock glow ones_tab ways renv hmat hdot hdec earth [-1; 1] [1; 2] 3 a0 h a /\
  crossed renv a0 h StateModel.BFlavor (fun i ie _ f => showers i ie f) l /\ length l = 1%nat /\ a_earth a = Some earth /\ sound_all rock ones_tab a l /\
  ob_nr (world a) = 1%nat /\ ob_int (world a) = true /\ increasing [-1; 1] /\ increasing [1; 2] /\ within [-1; 1] 0 /\ within [1; 2] (3 / 2) /\
  length_of (ways earth 0) = 2.
Proof.
  destruct begun_case as (a0 & a1 & Mk & I & G & A3 & NE & PO & N & EA).
  pose proof (poised_done a1 G A3 NE PO) as D. destruct (aexec renv AEvolve a1) as [r a2] eqn:EV. cbn [fst] in D. subst r.
  pose proof (lived_case a0 a1 a2 Mk I EV) as LV.
  exists a0, both, a2, ([] ++ [after renv a0 both]). split; [exact LV|]. split; [exact (crossed_case a0 a1 a2 I EV A3 EA)|]. split; [reflexivity|].
  split; [pose proof (aexec_earth renv AEvolve a1) as X; rewrite EV in X; cbn [snd] in X; rewrite X; exact EA|]. split; [apply sound_case|].
  destruct (node_of order3 rock glow ones_tab ways renv hmat hdot hdec earth [-1; 1] [1; 2] 3 a0 both a2 LV 0) as (s & Is); [cbn; lia|].
  pose proof (world_is order3 rock glow ones_tab ways renv hmat hdot hdec earth [-1; 1] [1; 2] 3 a0 both a2 LV 0 s Is) as WI.
  destruct (built_held a0 both a2 0 s Mk ltac:(apply LV) ltac:(apply LV) ltac:(apply LV) Is) as (_ & _ & BR).
  rewrite <- WI. cbn [object_of ob_nr ob_int]. split; [exact BR|]. split.
  { pose proof (evolve_nodes renv a1) as K. cbn [aexec] in EV. rewrite EV in K. cbn [snd] in K.
    destruct (a_nodes a1) as [|s1 rest]; [congruence|]. inversion K as [|? s2 ? rest2 K1 KR E1 E2]; subst. rewrite <- E2 in Is. injection Is as ->.
    inversion PO as [|? ? P1 _]; subst. destruct N as (N & _). inversion N as [|? ? N1 _]; subst. destruct (K1 N1) as (_ & [_ _ _ _ _ _ _ _ SW _]).
    unfold switches in SW. injection SW as SW. rewrite <- (po_int s1 P1). congruence. }
  split; [apply two_up; lra|]. split; [apply two_up; lra|]. unfold within, length_of, ways, AtmProps.path. cbn [nth length Nat.sub tr_ini tr_fin]. repeat split; lra.
Qed.
Print Assumptions c96_case.
