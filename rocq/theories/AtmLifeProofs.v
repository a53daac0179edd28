(** Each node of an ensemble follows the equation of FullSpec. *)
From Coq Require Import Reals List Arith Bool Lia Lra.
From Verif Require Import XsProofs IntModel XsModel StateModel StateProofs StateHistory StateLaws StateReady StateFrames AtmModel AtmProofs.
From Verif Require Import CMatrix FlavorModel FlavorProofs FlavorEqn AvgProofs SuperModel TransProofs TransProps EndModel EndProps FullModel FullSpec FullProofs.
From Verif Require Import AtmLifeModel AtmLifeSpec.
From Verif Require AtmProps.
Import ListNotations.
Local Open Scope R_scope.

Section Node.
Variable e : env.
Variable order : list (nat * nat).
Variable m : media.
Variable emission : body -> R -> nat -> nat -> nat -> R.
Variable tab : tabs -> list R -> nt -> itables.
Variable mat_of : nat -> vec -> mat.
Variable dot : nat -> vec -> vec -> R.
Variable dec : nat -> nat -> list R -> nat -> nat -> mat.

Notation on_voyage := (on_voyage order m emission dec).

(** ** What is always true of a node with trajectory [t] *)
Record fine (t : track) (s : nus) : Prop := {
  fi_min : (3 <= q_numneu s)%nat; fi_max : (q_numneu s <= e_maxdim e)%nat;
  fi_body : f_body (q_flags s) = true; fi_flag : f_track (q_flags s) = true; fi_energy : f_energy (q_flags s) = true;
  fi_track : q_track s = Some t;
  fi_osc : o_osc (q_opts s) = true; fi_pos : o_pos (q_opts s) = false; fi_const : o_const (q_opts s) = false;
  fi_basis : o_basis (q_opts s) = StateModel.BInter; fi_num : sq_num (q_sq s) = true; fi_shapes : shapes s }.

Definition fview (s : nus) := (q_numneu s, q_flags s, q_track s, q_opts s, sq_num (q_sq s), (q_nt s, q_nrhos s)).
Lemma fine_view t s s' : fview s' = fview s -> fine t s -> fine t s'.
Proof.
  unfold fview. intros V [A1 A2 A3 A4 A5 A6 A7 A8 A9 A10 A11 A12]. injection V as V1 V2 V3 V4 V5 V6 V7.
  unfold shapes in A12. constructor; unfold shapes; rewrite ?V1, ?V2, ?V3, ?V4, ?V5, ?V6, ?V7; assumption.
Qed.

Lemma fine_set t s s' : state_set e s s' t -> e_ini_num e true = true -> fine t s -> fine t s'.
Proof.
  intros S IN [A1 A2 A3 A4 A5 A6 A7 A8 A9 A10 A11 A12].
  unfold shapes in A12. constructor; unfold shapes; rewrite ?(ss_numneu _ _ _ _ S), ?(ss_flags _ _ _ _ S), ?(ss_track _ _ _ _ S), ?(ss_opts _ _ _ _ S), ?(ss_num _ _ _ _ S), ?(ss_nt _ _ _ _ S), ?(ss_nrhos _ _ _ _ S), ?A11; cbn; try assumption.
  reflexivity.
Qed.

(** ** Setting the state *)
Lemma begins t s s' v b : fine t s -> e_ini_num e true = true -> exact_all order m emission tab mat_of dot dec e ->
  Forall (fun p => (fst p < snd p < q_numneu s)%nat) order -> fill_state e v b s = (Done, s', []) ->
  fine t s' /\ on_voyage s' (tr_ini t) b v [] /\ q_offset s' = Some 0 /\ q_body s' = q_body s /\ f_state (q_flags s') = true.
Proof.
  intros F IN EX OO E. pose proof F as [A1 A2 A3 A4 A5 A6 A7 A8 A9 A10 A11 A12].
  destruct (fill_state_eq e v b s t A2 A6 A5) as (s1 & E1 & SS & _). rewrite E in E1. injection E1 as <-.
  destruct (fill_last e v b s s' [] E) as (s3 & E3).
  assert (C3 : q_numneu s3 = q_numneu s' /\ q_ne s3 = q_ne s' /\ q_nrhos s3 = q_nrhos s' /\ q_proj s3 = q_proj s') by (rewrite E3; repeat split).
  destruct C3 as (C1 & C2 & C3 & C4).
  split; [exact (fine_set t s s' SS IN F)|]. split; [|split; [apply SS|split; [apply SS|rewrite (ss_flags _ _ _ _ SS); reflexivity]]].
  pose proof (ss_fresh _ _ _ _ SS) as FR. rewrite <- (ss_numneu _ _ _ _ SS) in OO. constructor.
  - exact FR.
  - rewrite (ss_osc _ _ _ _ SS). exact A7.
  - apply SS.
  - rewrite (ss_t _ _ _ _ SS). cbn. ring.
  - exists (matrices dec s'). split; [|intros ie r _ _; apply meq_refl].
    apply vo_nil. intros ie r Hi Hr. apply meq_sym. unfold matrices. cbn [object_of ob_n ob_ne ob_nr] in *.
    eapply meq_trans; [apply back_zero; rewrite (ss_t _ _ _ _ SS), (ss_t0 _ _ _ _ SS); ring|].
    assert (Q : sq_state (q_sq s') = e_mk e s3 v b) by (rewrite E3; reflexivity). rewrite Q.
    unfold matrix. rewrite <- C1, <- C3. eapply meq_trans; [apply (ea_mk _ _ _ _ _ _ _ _ EX); congruence|].
    unfold put_in, ini_state. cbn [object_of ob_n]. rewrite <- C1. apply msum_meq. intros j J. apply mscale_meq. destruct (basis_of b); try apply meq_refl.
    assert (stored_P order s3 r j = stored_P order s' r j) as -> by (unfold stored_P; rewrite C1, C4; reflexivity).
    rewrite (stored_flavour order s' ie r j FR) by (try assumption; congruence). apply meq_refl.
Qed.

(** ** One leg more *)
Lemma goes_on t bd off s s' ev t0 b v gs : fine t s -> good_media m -> exact_all order m emission tab mat_of dot dec e ->
  Forall (fun p => (fst p < snd p < q_numneu s)%nat) order -> su_repr (q_numneu s) (mat_of (q_numneu s)) (dot (q_numneu s)) ->
  q_body s = Some bd -> q_offset s = Some off -> tr_ini t <= tr_fin t ->
  on_voyage s t0 b v gs -> evolve_state e s = (Done, s', ev) ->
  on_voyage s' t0 b v (gs ++ [stage_of tab s' (Leg bd off (tr_fin t - tr_ini t))]).
Proof.
  intros [A1 A2 A3 A4 A5 A6 S2 S3 S4 A10 S6 A12] GM EX OO SU QB OF L [F O T0 T (Bm & WB & EB)] E.
  pose proof E as E0. rewrite (evolve_state_eq e bd t s QB A6) in E.
  destruct (has_all s) eqn:HA; [|discriminate E]. rewrite seq_eq in E.
  destruct (prep_cases e t s) as (rp & sp & EP & UP & DP & _). rewrite EP in E.
  destruct rp; try discriminate E. specialize (DP eq_refl).
  assert (TU : put_sq_h (StateLaws.turned t s) s = s).
  { unfold StateLaws.turned, rlt. destruct (Rlt_dec (tr_fin t) (tr_ini t)) as [X|_]; [lra|]. destruct s as [? ? ? ? ? ? [? ? ? ? ?] ? ? ? ? ? ? ? ? ?]. reflexivity. }
  rewrite TU in DP.
  pose proof (tail_keeps_tabs e bd t s sp) as TK.
  destruct (tail_ e bd t s sp) as [[r2 s2] e2] eqn:E2. injection E as -> -> _. cbn [out_obj fst snd] in TK.
  unfold tail_, shortcut in E2. rewrite S3, S4, andb_false_r in E2.
  assert (CP : core sp = core s) by (change (core sp) with (core (but_ints sp)); rewrite DP; reflexivity).
  assert (QP : q_sq sp = q_sq s) by (change (q_sq sp) with (q_sq (but_ints sp)); rewrite DP; reflexivity).
  assert (OP : q_opts sp = q_opts s) by (change (q_opts sp) with (q_opts (but_ints sp)); rewrite DP; reflexivity).
  assert (BP : q_body sp = Some bd) by (change (q_body sp) with (q_body (but_ints sp)); rewrite DP; exact QB).
  assert (FP : q_offset sp = Some off) by (change (q_offset sp) with (q_offset (but_ints sp)); rewrite DP; exact OF).
  destruct (evolve_done e _ _ _ _ E2) as (BX & _ & _).
  destruct (evolve_solved e _ _ _ _ E2) as (ts & t' & st & SV & ST); [rewrite QP; exact S6|].
  assert (C : core s' = core s).
  { pose proof (core_exec e CEvolve eq_refl eq_refl s) as K. cbn [exec] in K. rewrite E0 in K. exact K. }
  assert (OB : q_opts s' = q_opts s).
  { change (q_opts s') with (q_opts (but_x s')). rewrite BX. exact OP. }
  assert (T' : sq_t (q_sq s') = sq_t (q_sq s) + (tr_fin t - tr_ini t)) by (rewrite (evolve_clock e _ _ _ _ E2), QP; reflexivity).
  assert (T0' : sq_t0 (q_sq s') = sq_t0 (q_sq s)).
  { change (sq_t0 (q_sq s')) with (sq_t0 (q_sq (but_x s'))). rewrite BX. cbn. rewrite QP. reflexivity. }
  set (l := Leg bd off (tr_fin t - tr_ini t)).
  assert (SG : stage_of tab s' l = stage_of tab sp l).
  { unfold tabs_of in TK. unfold stage_of. rewrite TK, OB, OP. pose proof C as C'. rewrite <- CP in C'. unfold core in C'. injection C' as C1 _ _ _ C5 _ _ _ _ _ _. rewrite C1, C5. reflexivity. }
  pose proof C as C'. unfold core in C'. injection C' as C1 C2 C3 C4 C5 C6 C7 C8 C9 C10 C11.
  pose proof CP as CP'. unfold core in CP'. injection CP' as P1 P2 P3 P4 P5 P6 P7 P8 P9 P10 P11.
  assert (TL : total (legs (gs ++ [stage_of tab s' l])) = total (legs gs) + (tr_fin t - tr_ini t)).
  { unfold legs. rewrite map_app. generalize (map sg_leg gs). clear. intro ls. cbn [map stage_of sg_leg].
    induction ls as [|a ls IH]; cbn [app total fold_right] in *; [unfold l; cbn; ring|]. unfold total in IH. rewrite IH. ring. }
  assert (WO : object_of s' = object_of s) by (unfold object_of; rewrite C1, C2, C3, C4, C5, C6, OB; reflexivity).
  assert (WP : object_of sp = object_of s) by (unfold object_of; rewrite P1, P2, P3, P4, P5, P6, OP; reflexivity).
  assert (HP : forall ie, stored_H sp ie = stored_H s ie) by (intro; unfold stored_H; rewrite P2, P8; reflexivity).
  constructor.
  - exact (fresh_core _ _ C F).
  - rewrite C8. exact O.
  - rewrite T0'. exact T0.
  - rewrite T', T, TL. ring.
  - rewrite WO, SG.
    destruct (ea_solve _ _ _ _ _ _ _ _ EX sp (tr_fin t - tr_ini t) ts t' st bd off SV ltac:(lra) BP FP ltac:(rewrite OP; exact S2) ltac:(rewrite P8; exact O) (fresh_core _ _ CP F))
      as (sol & pr & old & fold & PR & D & EN).
    set (hm := home sp (mat_of (q_numneu sp)) sol).
    exists (hm (sq_t (q_sq s) + (tr_fin t - tr_ini t))). split.
    + change (tr_fin t - tr_ini t) with (l_len (sg_leg (stage_of tab sp l))).
      apply voyage_snoc with (T := sq_t (q_sq s)) (B := Bm).
      * exact WB.
      * exact T.
      * cbn. lra.
      * intros ie r Hi Hr. eapply meq_trans; [|apply EB; assumption]. unfold hm, home, matrices. rewrite HP, QP, OP. cbn [object_of ob_n].
        assert (I0 : meq (q_numneu s) (mat_of (q_numneu sp) (sol (sq_t (q_sq s)) ie r)) (matrix dec s (sq_state (q_sq s)) ie r)).
        { cbn in Hi, Hr. destruct (EN ie r ltac:(rewrite P3; exact Hi) ltac:(rewrite P4; exact Hr)) as (I0 & _). unfold matrix in *. rewrite P4, QP in I0. rewrite P2 in *. exact I0. }
        destruct (basis_of (o_basis (q_opts s))); cbn [back]; try exact I0; apply evolve_meq, I0.
      * intros x ie r Hx Hi Hr. rewrite <- WP. change (ob_n (object_of sp)) with (q_numneu sp). cbn in Hi, Hr, Hx. unfold hm.
        assert (X3 : (3 <= q_numneu sp)%nat) by (rewrite P2; exact A1).
        assert (SHP : shapes sp) by (unfold shapes in *; rewrite P1, P4, OP; exact A12).
        apply (slope_home order m emission tab GM sp (mat_of (q_numneu sp)) (dot (q_numneu sp)) ltac:(rewrite P2; exact SU)
          (fresh_core _ _ CP F) ltac:(rewrite P8; exact O) ltac:(rewrite OP; exact S2) X3 SHP ltac:(rewrite P2; exact OO) x bd off (tr_fin t - tr_ini t) sol (pr x) (old x) (fold x) ie r).
        -- rewrite P3. exact Hi.
        -- rewrite P4. exact Hr.
        -- intros r1 f1 e1 R1 F1 E1. apply PR; assumption.
        -- apply D; [rewrite QP; exact Hx|rewrite P3; exact Hi|rewrite P4; exact Hr].
    + intros ie r Hi Hr. cbn in Hi, Hr. unfold hm, home, matrices. rewrite HP, QP, OP, OB. cbn [object_of ob_n]. rewrite T', T0', ST.
      assert (SH : stored_H s' ie = stored_H s ie) by (unfold stored_H; rewrite C2, C8; reflexivity). rewrite SH.
      assert (I1 : meq (q_numneu s) (matrix dec s' st ie r) (mat_of (q_numneu sp) (sol (sq_t (q_sq s) + (tr_fin t - tr_ini t)) ie r))).
      { destruct (EN ie r ltac:(rewrite P3; exact Hi) ltac:(rewrite P4; exact Hr)) as (_ & I1). unfold matrix in *. rewrite P4, QP in I1. rewrite C4, C2. rewrite P2 in *. exact I1. }
      destruct (basis_of (o_basis (q_opts s))); cbn [back]; try exact I1; apply evolve_meq, I1.
Qed.

(** ** Nothing happens to the state *)
Definition vview (s : nus) := (core s, sq_t (q_sq s), sq_t0 (q_sq s), sq_state (q_sq s), o_basis (q_opts s), o_int (q_opts s)).
Lemma stays s s' t0 b v gs : vview s' = vview s -> on_voyage s t0 b v gs -> on_voyage s' t0 b v gs.
Proof.
  unfold vview. intros V [F O T0 T W]. injection V as V1 V2 V3 V4 V5 V6 V7 V8 V9 V10 V11 V12 V13 V14 V15 V16.
  assert (C : core s' = core s) by (unfold core; congruence). constructor.
  - exact (fresh_core _ _ C F).
  - congruence.
  - congruence.
  - congruence.
  - unfold object_of, matrices, matrix, stored_H in *. rewrite V1, V2, V3, V4, V5, V6, V8, V12, V13, V14, V15, V16. exact W.
Qed.

(** ** What the calls on an ensemble do to a node *)
Lemma each_nth f : forall l i r l', AtmModel.each f i l = (r, l') -> forall k s, nth_error l k = Some s ->
  exists s', nth_error l' k = Some s' /\ (s' = s \/ s' = out_obj (f (i + k)%nat s)) /\ (r = Done -> exists ev, f (i + k)%nat s = (Done, s', ev)).
Proof.
  induction l as [|x l IH]; intros i r l' E k s K; [destruct k; discriminate K|]. cbn [AtmModel.each] in E.
  destruct (f i x) as [[r1 x'] ev] eqn:F.
  assert (SAME : r1 <> Done -> (r1, x' :: l) = (r, l') -> exists s', nth_error l' k = Some s' /\ (s' = s \/ s' = out_obj (f (i + k)%nat s)) /\ (r = Done -> exists ev, f (i + k)%nat s = (Done, s', ev))).
  { intros ND X. injection X as <- <-. destruct k as [|k]; cbn in K |- *.
    - injection K as <-. exists x'. rewrite Nat.add_0_r, F. split; [reflexivity|]. split; [right; reflexivity|congruence].
    - exists s. split; [exact K|]. split; [left; reflexivity|congruence]. }
  destruct r1; try (apply SAME; [discriminate|exact E]). clear SAME.
  destruct (AtmModel.each f (S i) l) as [r2 l2] eqn:E2. injection E as <- <-.
  destruct k as [|k]; cbn in K |- *.
  - injection K as <-. exists x'. rewrite Nat.add_0_r, F. split; [reflexivity|]. split; [right; reflexivity|]. intros _. exists ev. reflexivity.
  - rewrite <- Nat.add_succ_comm. exact (IH _ _ _ E2 k s K).
Qed.

Lemma Forall2_nth {A B} (Q : A -> B -> Prop) l l' : Forall2 Q l l' -> forall k s, nth_error l k = Some s -> exists s', nth_error l' k = Some s' /\ Q s s'.
Proof. intro F. induction F as [|x y l l' H F IH]; intros [|k] s K; cbn in K; try discriminate K; [injection K as <-; exists y; auto|exact (IH k s K)]. Qed.

(** what stays besides the settings *)
Definition bounds (s : nus) := (q_numneu s, q_ne s, q_E s, q_nrhos s).
Definition rests (s s' : nus) : Prop := q_body s' = q_body s /\ q_offset s' = q_offset s /\ bounds s' = bounds s.

Definition calm (c : bset) : Prop := match c with BConst true | BPos true | BOsc false => False | _ => True end.
Lemma set_node t s c : fine t s -> calm c -> let s' := out_obj (exec e (node_call c) s) in
  fine t s' /\ rests s s' /\ (aharmless (ASet c) = true -> vview s' = vview s).
Proof.
  intros F CA. pose proof F as [A1 A2 A3 A4 A5 A6 A7 A8 A9 A10 A11 A12].
  assert (K : fine t s /\ rests s s /\ (aharmless (ASet c) = true -> vview s = vview s)) by (split; [exact F|]; split; [repeat split|reflexivity]).
  destruct c; cbn [node_call exec].
  - unfold set_angle, read. destruct (_ || _); [exact K|]. destruct (accepts e i j); [|exact K]. unfold modify. cbn [out_obj fst snd].
    split; [constructor; assumption|]. split; [repeat split|discriminate].
  - unfold set_phase, read. destruct (_ || _); [exact K|]. destruct (accepts e i j); [|exact K]. unfold modify. cbn [out_obj fst snd].
    split; [constructor; assumption|]. split; [repeat split|discriminate].
  - unfold set_dm, read. destruct (Nat.ltb _ _); [exact K|]. destruct (accepts1 e i); [|exact K]. unfold modify. cbn [out_obj fst snd].
    split; [constructor; assumption|]. split; [repeat split|discriminate].
  - destruct (defaults_fun e) as (f & _ & _ & _ & X). rewrite (X s A1 A2). cbn [out_obj fst snd].
    split; [constructor; assumption|]. split; [repeat split|discriminate].
  - unfold set_tau, read. destruct (negb (nt_eqb (q_nt s) IntModel.Both) && b) eqn:B1; [exact K|].
    destruct (negb (o_int (q_opts s)) && b); [exact K|]. destruct (Nat.ltb (q_numneu s) 3 && b); [exact K|].
    unfold modify. cbn [out_obj fst snd]. split; [|split; [repeat split|reflexivity]].
    constructor; try assumption. destruct A12 as (H1 & H2 & H3). repeat split; try assumption. cbn. intros ->. destruct (q_nt s); try reflexivity; discriminate B1.
  - unfold set_gr, read. destruct (_ && _); [exact K|]. unfold modify. cbn [out_obj fst snd].
    split; [constructor; assumption|]. split; [repeat split|reflexivity].
  - destruct b; [|destruct CA]. split; [constructor; try assumption; reflexivity|]. split; [repeat split|reflexivity].
  - destruct b; [destruct CA|]. split; [constructor; try assumption; reflexivity|]. split; [repeat split|reflexivity].
  - destruct b; [destruct CA|]. split; [constructor; try assumption; reflexivity|]. split; [repeat split|reflexivity].
  - split; [constructor; assumption|]. split; [repeat split|reflexivity].
  - destruct b; (split; [constructor; assumption|]; split; [repeat split|reflexivity]).
Qed.

Lemma ints_node t s s' : but_ints s' = but_ints s -> fine t s -> fine t s' /\ rests s s' /\ vview s' = vview s.
Proof.
  intros D F. split; [|split; [split; [|split]|]].
  - apply (fine_view t s s'); [|exact F]. change (fview s') with (fview (but_ints s')). rewrite D. reflexivity.
  - change (q_body s') with (q_body (but_ints s')). rewrite D. reflexivity.
  - change (q_offset s') with (q_offset (but_ints s')). rewrite D. reflexivity.
  - change (bounds s') with (bounds (but_ints s')). rewrite D. reflexivity.
  - change (vview s') with (vview (but_ints s')). rewrite D. reflexivity.
Qed.

Lemma evolve_node t s : fine t s -> fine t (out_obj (evolve_state e s)) /\ rests s (out_obj (evolve_state e s)).
Proof.
  intro F. destruct (num_evolve e s (fi_const _ _ F)) as (X1 & X2). cbn [exec] in X1, X2.
  destruct (evolve_state_view e _ (fun s => (q_numneu s, q_flags s, q_track s, (q_nt s, q_nrhos s), q_body s, q_offset s, (q_ne s, q_E s))) s) as [X|(t1 & _ & X)]; try reflexivity;
    (injection X as Y1 Y2 Y3 Y4 Y5 Y6 Y7 Y8 Y9; split; [apply (fine_view t s); [unfold fview; congruence|exact F]|split; [assumption|split; [assumption|unfold bounds; congruence]]]).
Qed.

Lemma filled3 i (v : nat -> nat -> nat -> R) b d1 d2 s s' ev : init_state2 e d1 d2 (v i) b s = (Done, s', ev) -> fill_state e (fun ie _ f => v i ie f) b s = (Done, s', ev).
Proof. unfold init_state2, read. rewrite checks_eq. destruct (existsb _ _); [discriminate|]. intro H. exact H. Qed.
Lemma filled4 i (v : nat -> nat -> nat -> nat -> R) b d1 d2 d3 s s' ev : init_state3 e d1 d2 d3 (v i) b s = (Done, s', ev) -> fill_state e (v i) b s = (Done, s', ev).
Proof. unfold init_state3, read. rewrite checks_eq. destruct (existsb _ _); [discriminate|]. intro H. exact H. Qed.
Lemma fill_nil t v b s s' ev : fine t s -> fill_state e v b s = (Done, s', ev) -> fill_state e v b s = (Done, s', []).
Proof. intros F H. destruct (fill_state_eq e v b s t (fi_max _ _ F) (fi_track _ _ F) (fi_energy _ _ F)) as (s1 & X & _). rewrite X in H. injection H as <- <-. exact X. Qed.

Lemma fill_set t v b s s' ev : fine t s -> fill_state e v b s = (Done, s', ev) -> state_set e s s' t.
Proof. intros F H. destruct (fill_state_eq e v b s t (fi_max _ _ F) (fi_track _ _ F) (fi_energy _ _ F)) as (s1 & X & SS & _). rewrite X in H. injection H as <- _. exact SS. Qed.

(** ** Calls on the ensemble, seen from node [i] *)
Definition did (c : acall) (r : res) (i : nat) (s s' : nus) : Prop :=
  match c with
  | ASet c => s' = s \/ s' = out_obj (exec e (node_call c) s)
  | AEarth b => s' = put_f_body true (set_q_body b s)
  | AXs x => s' = put_i_done false (put_i_ncs x s)
  | AStep h => s' = put_sq_h h s
  | AStepAt h _ => s' = s \/ s' = put_sq_h h s
  | AInit3 _ d1 d2 v b => r = Done -> exists ev, init_state2 e d1 d2 (v i) b s = (Done, s', ev)
  | AInit4 _ d1 d2 d3 v b => r = Done -> exists ev, init_state3 e d1 d2 d3 (v i) b s = (Done, s', ev)
  | AEvolve => exists s1, but_ints s1 = but_ints s /\ (s' = s1 \/ s' = out_obj (evolve_state e s1))
  | AThreads _ _ => s' = s
  | ANode _ _ => True
  end.

Lemma nth_set_nth (l : list nus) k x i s : nth_error l i = Some s -> exists s', nth_error (set_nth l k x) i = Some s' /\ (s' = s \/ (i = k /\ s' = x)).
Proof.
  revert k i. induction l as [|y l IH]; intros k i Hi; [destruct i; discriminate Hi|]. destruct k as [|k], i as [|i]; cbn in *.
  - exists x. auto.
  - exists s. auto.
  - exists s. auto.
  - destruct (IH k i Hi) as (s' & X & [Y|[Y Z]]); exists s'; auto.
Qed.

Lemma aexec_did c a r a' i s : is_node c = false -> aexec e c a = (r, a') -> nth_error (a_nodes a) i = Some s ->
  exists s', nth_error (a_nodes a') i = Some s' /\ did c r i s s'.
Proof.
  intros NC E I.
  assert (O : forall mm a r a', on_all mm a = (r, a') -> nth_error (a_nodes a) i = Some s ->
    exists s', nth_error (a_nodes a') i = Some s' /\ (s' = s \/ s' = out_obj (mm s)) /\ (r = Done -> exists ev, mm s = (Done, s', ev))).
  { intros mm a1 r1 a1' X Y. unfold on_all in X. destruct (AtmModel.each _ 0 _) as [r2 l] eqn:EA. injection X as <- <-. exact (each_nth _ _ _ _ _ EA i s Y). }
  assert (FI : forall f a r a', a_fill f a = (r, a') -> nth_error (a_nodes a) i = Some s -> 
    exists s', nth_error (a_nodes a') i = Some s' /\ (r = Done -> exists ev, f i s = (Done, s', ev))).
  { intros f a1 r1 a1' X Y. unfold a_fill in X. destruct (AtmModel.each f 0 _) as [r2 l] eqn:EA. destruct (each_nth _ _ _ _ _ EA i s Y) as (s' & Z1 & _ & Z2).
    destruct r2; injection X as <- <-; exists s'; auto. }
  destruct c; try discriminate NC; cbn [aexec did] in *.
  - destruct (O _ _ _ _ E I) as (s' & X & Y & _). eauto.
  - destruct (on_all (set_body b) (with_earth b a)) as [r1 a1] eqn:EO. injection E as <- <-.
    assert (r1 = Done) as -> by (unfold on_all in EO; destruct (AtmModel.each _ 0 _) as [r2 l] eqn:EA; injection EO as <- <-; clear -EA; revert EA; generalize (a_nodes (with_earth b a)) as l0, 0%nat as k; intro l0; revert r2 l;
      induction l0 as [|x l0 IH]; intros r2 l k EA; cbn in EA; [congruence|]; destruct (AtmModel.each _ (S k) l0) as [r3 l3] eqn:E3; injection EA as <- <-; exact (IH _ _ _ E3)).
    destruct (O _ _ _ _ EO I) as (s' & X & _ & Y). destruct (Y eq_refl) as (ev & Z). cbn in Z. injection Z as <- _. eauto.
  - destruct (on_all (set_xs x) (with_ncs x a)) as [r1 a1] eqn:EO. injection E as <- <-.
    assert (r1 = Done) as -> by (unfold on_all in EO; destruct (AtmModel.each _ 0 _) as [r2 l] eqn:EA; injection EO as <- <-; clear -EA; revert EA; generalize (a_nodes (with_ncs x a)) as l0, 0%nat as k; intro l0; revert r2 l;
      induction l0 as [|y l0 IH]; intros r2 l k EA; cbn in EA; [congruence|]; destruct (AtmModel.each _ (S k) l0) as [r3 l3] eqn:E3; injection EA as <- <-; exact (IH _ _ _ E3)).
    destruct (O _ _ _ _ EO I) as (s' & X & _ & Y). destruct (Y eq_refl) as (ev & Z). cbn in Z. injection Z as <- _. eauto.
  - destruct (on_all (modify (put_sq_h h)) a) as [r1 a1] eqn:EO. injection E as <- <-.
    assert (r1 = Done) as -> by (unfold on_all in EO; destruct (AtmModel.each _ 0 _) as [r2 l] eqn:EA; injection EO as <- <-; clear -EA; revert EA; generalize (a_nodes a) as l0, 0%nat as k; intro l0; revert r2 l;
      induction l0 as [|y l0 IH]; intros r2 l k EA; cbn in EA; [congruence|]; destruct (AtmModel.each _ (S k) l0) as [r3 l3] eqn:E3; injection EA as <- <-; exact (IH _ _ _ E3)).
    destruct (O _ _ _ _ EO I) as (s' & X & _ & Y). destruct (Y eq_refl) as (ev & Z). cbn in Z. injection Z as <- _. eauto.
  - destruct (nth_error (a_nodes a) idx) as [s1|] eqn:N1; [|injection E as <- <-; eauto]. injection E as <- <-. cbn [with_nodes a_nodes].
    destruct (nth_set_nth (a_nodes a) idx (put_sq_h h s1) i s I) as (s' & X & [Y|[-> Z]]); exists s'; (split; [exact X|]); [auto|].
    right. congruence.
  - unfold a_init3 in E. destruct (negb _); [injection E as <- <-; exists s; split; [exact I|discriminate]|].
    destruct (negb _); [injection E as <- <-; exists s; split; [exact I|discriminate]|]. exact (FI _ _ _ _ E I).
  - unfold a_init4 in E. destruct (negb _); [injection E as <- <-; exists s; split; [exact I|discriminate]|]. exact (FI _ _ _ _ E I).
  - unfold a_evolve in E. destruct (a_guard a); try (injection E as <- <-; exists s; split; [exact I|]; exists s; auto; fail).
    destruct (Forall2_nth _ _ _ (share_but_ints e a) i s I) as (s1 & I1 & B1).
    destruct (share_tables e a) as [r1 a1]. cbn [snd] in I1. destruct r1; try (injection E as <- <-; exists s1; split; [exact I1|]; exists s1; auto; fail).
    destruct (a_threads a1) as [k|]; [|injection E as <- <-; exists s1; split; [exact I1|]; exists s1; auto].
    destruct (Nat.eqb k 1).
    + unfold evolve_serial in E. destruct (AtmModel.each _ 0 _) as [r2 l] eqn:EA. injection E as <- <-.
      destruct (each_nth _ _ _ _ _ EA i s1 I1) as (s' & X & Y & _). exists s'. split; [exact X|]. exists s1. auto.
    + unfold evolve_parallel in E. injection E as <- <-. exists (out_obj (evolve_state e s1)). split; [|exists s1; auto].
      cbn [with_nodes a_nodes]. rewrite map_map. rewrite nth_error_map, I1. reflexivity.
  - injection E as <- <-. eauto.
Qed.

(** an evolution that succeeds at every node *)
Lemma evolve_did a r a' i s : aexec e AEvolve a = (r, a') -> fst (aexec e AEvolve (with_threads 1 a)) = Done -> a_threads a <> None -> nth_error (a_nodes a) i = Some s ->
  exists s' s1 ev, nth_error (a_nodes a') i = Some s' /\ but_ints s1 = but_ints s /\ evolve_state e s1 = (Done, s', ev).
Proof.
  intros E D T I. cbn [aexec] in E, D. destruct (a_threads a) as [k|] eqn:TK; [|congruence].
  pose proof (AtmProps.c56_thread_count e a k D) as X. assert (AK : with_threads k a = a) by (clear -TK; destruct a; cbn in TK; subst; reflexivity). rewrite AK, E in X.
  injection X as -> XA. subst a'. cbn [with_threads a_nodes]. clear E AK TK T k.
  destruct (a_evolve e (with_threads 1 a)) as [r1 a2] eqn:E. cbn [fst snd] in *. subst r1. unfold a_evolve in E.
  destruct (a_guard (with_threads 1 a)); try discriminate E.
  assert (I' : nth_error (a_nodes (with_threads 1 a)) i = Some s) by exact I.
  destruct (Forall2_nth _ _ _ (share_but_ints e (with_threads 1 a)) i s I') as (s1 & I1 & B1).
  assert (T1 : forall a r a', share_tables e a = (r, a') -> a_threads a' = a_threads a).
  { clear. intros a r a' E. unfold share_tables in E. destruct (a_nodes a) as [|s0 rest]; [congruence|]. destruct (o_int _); [|congruence].
    destruct (init_interactions e s0) as [[r0 s0'] ev]. destruct r0; try (injection E as <- <-; reflexivity). destruct (AtmModel.each _ 0 _) as [r2 l]. injection E as <- <-. reflexivity. }
  destruct (share_tables e (with_threads 1 a)) as [r1 a1] eqn:ES. cbn [snd] in I1. destruct r1; try discriminate E.
  rewrite (T1 _ _ _ ES) in E. cbn [with_threads a_threads] in E. change (Nat.eqb 1 1) with true in E. cbv iota in E. unfold evolve_serial in E.
  destruct (AtmModel.each _ 0 _) as [r2 l] eqn:EA. injection E as -> <-.
  destruct (each_nth _ _ _ _ _ EA i s1 I1) as (s' & X & _ & Y). destruct (Y eq_refl) as (ev & Z). exists s', s1, ev. auto.
Qed.

Lemma aexec_earth c a : a_earth (snd (aexec e c a)) = match c with AEarth b => b | _ => a_earth a end.
Proof.
  assert (O : forall m a, a_earth (snd (on_all m a)) = a_earth a) by (intros mm a0; unfold on_all; destruct (AtmModel.each _ 0 _) as [r l]; reflexivity).
  assert (Fl : forall f a, a_earth (snd (a_fill f a)) = a_earth a) by (intros f a0; unfold a_fill; destruct (AtmModel.each f 0 _) as [r l]; destruct r; reflexivity).
  destruct c; cbn [aexec].
  - apply O.
  - rewrite O. reflexivity.
  - rewrite O. reflexivity.
  - apply O.
  - destruct (nth_error (a_nodes a) idx); reflexivity.
  - unfold a_init3. destruct (negb _); [reflexivity|]. destruct (negb _); [reflexivity|]. apply Fl.
  - unfold a_init4. destruct (negb _); [reflexivity|]. apply Fl.
  - unfold a_evolve. destruct (a_guard a); try reflexivity.
    assert (Sh : a_earth (snd (share_tables e a)) = a_earth a).
    { unfold share_tables. destruct (a_nodes a) as [|s0 rest] eqn:En; [reflexivity|].
      destruct (o_int (q_opts s0)); [|reflexivity]. destruct (init_interactions e s0) as [[r s0'] ev].
      destruct r; try reflexivity. destruct (AtmModel.each _ 0 (s0' :: rest)) as [r l]. reflexivity. }
    destruct (share_tables e a) as [r a1]. cbn in Sh. destruct r; try exact Sh. destruct (a_threads a1) as [k|]; [|exact Sh].
    destruct (if Nat.eqb k 1 then _ else _) as [r l]. exact Sh.
  - reflexivity.
  - destruct (nth_error (a_nodes a) i); [|reflexivity]. destruct (exec e c n) as [[r s'] ev]. reflexivity.
Qed.
End Node.
