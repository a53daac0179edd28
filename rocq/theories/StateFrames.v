(** Which calls can change what: options, interaction data, clock and step. *)
From Coq Require Import Reals List Arith Bool ZArith Lia Lra.
From Verif Require Import IntModel XsModel XsProofs StateModel StateProofs StateHistory StateLaws StateReady.
Import ListNotations.
Open Scope R_scope.

(** calls that change a switch, or interaction data *)
Definition is_opt (c : call) : bool :=
  match c with CTau _ | CGlashow _ | COsc _ | CPos _ | CScale _ | CConst _ | CBasis _ | CSources _ => true
  | _ => false end.
Definition is_evolve (c : call) : bool := match c with CEvolve => true | _ => false end.
Definition is_int (c : call) : bool :=
  match c with CInteractions | CXs _ | CSources _ => true | _ => false end.

(** switches that an evolution leaves alone *)
Definition switches (s : nus) :=
  let o := q_opts s in (o_int o, o_osc o, o_tau o, o_gr o, o_pos o, o_const o, o_src o, o_scale o).

Section Machine.
Variable e : env.

Ltac frame vw :=
  unfold set_body, set_track, set_osc, set_pos, set_scale, set_const, set_tau, set_gr,
    set_basis, set_sources, set_xs, get_hamiltonian; stab_with (keeps_r _ vw) (keeps_t _ vw).

Lemma opts_frame c s : wf e s -> is_opt c = false -> is_evolve c = false ->
  q_opts (out_obj (exec e c s)) = q_opts s.
Proof.
  intros W O V. destruct (is_init c) eqn:I.
  { destruct (init_cases e c s W I) as [Y|(tr & s1 & _ & Y & S1 & _)]; rewrite Y; [reflexivity|exact (ss_opts _ _ _ _ S1)]. }
  destruct (is_param c) eqn:P.
  { destruct (param_cases e c s W P) as [Y|(s1 & Y & Fr & _)]; rewrite Y; [reflexivity|]. cbn. rewrite Fr. reflexivity. }
  assert (K : stable (keeps q_opts) (exec e c)); [|exact (K s)].
  destruct c; try discriminate I; try discriminate P; try discriminate O; try discriminate V; cbn [exec];
    try (frame q_opts; fail).
  - frame q_opts. intro s1. pose proof (pre_derive_but_x (sq_t (q_sq s0)) s1) as B. unfold keeps in *.
    change (q_opts (out_obj (pre_derive (sq_t (q_sq s0)) s1)))
      with (q_opts (but_x (out_obj (pre_derive (sq_t (q_sq s0)) s1)))). rewrite B. reflexivity.
  - intro s1. pose proof (init_but_ints e s1) as B. unfold keeps in *.
    change (q_opts (out_obj (init_interactions e s1)))
      with (q_opts (but_ints (out_obj (init_interactions e s1)))). rewrite B. reflexivity.
Qed.

Lemma sq_frame c s : wf e s -> is_init c = false -> is_evolve c = false ->
  q_sq (out_obj (exec e c s)) = q_sq s.
Proof.
  intros W I V.
  destruct (is_param c) eqn:P.
  { destruct (param_cases e c s W P) as [Y|(s1 & Y & Fr & _)]; rewrite Y; [reflexivity|]. cbn. rewrite Fr. reflexivity. }
  assert (K : stable (keeps q_sq) (exec e c)); [|exact (K s)].
  destruct c; try discriminate I; try discriminate P; try discriminate V; cbn [exec];
    try (frame q_sq; fail).
  - frame q_sq. intro s1. pose proof (pre_derive_but_x (sq_t (q_sq s0)) s1) as B. unfold keeps in *.
    change (q_sq (out_obj (pre_derive (sq_t (q_sq s0)) s1)))
      with (q_sq (but_x (out_obj (pre_derive (sq_t (q_sq s0)) s1)))). rewrite B. reflexivity.
  - intro s1. pose proof (init_but_ints e s1) as B. unfold keeps in *.
    change (q_sq (out_obj (init_interactions e s1)))
      with (q_sq (but_ints (out_obj (init_interactions e s1)))). rewrite B. reflexivity.
Qed.

Lemma ints_frame c s : wf e s -> is_int c = false -> is_evolve c = false ->
  q_ints (out_obj (exec e c s)) = q_ints s.
Proof.
  intros W N V. destruct (is_init c) eqn:I.
  { destruct (init_cases e c s W I) as [Y|(tr & s1 & _ & Y & S1 & _)]; rewrite Y; [reflexivity|exact (ss_ints _ _ _ _ S1)]. }
  destruct (is_param c) eqn:P.
  { destruct (param_cases e c s W P) as [Y|(s1 & Y & Fr & _)]; rewrite Y; [reflexivity|]. cbn. rewrite Fr. reflexivity. }
  assert (K : stable (keeps q_ints) (exec e c)); [|exact (K s)].
  destruct c; try discriminate I; try discriminate P; try discriminate N; try discriminate V; cbn [exec];
    try (frame q_ints; fail).
  frame q_ints. intro s1. pose proof (pre_derive_but_x (sq_t (q_sq s0)) s1) as B. unfold keeps in *.
  change (q_ints (out_obj (pre_derive (sq_t (q_sq s0)) s1)))
    with (q_ints (but_x (out_obj (pre_derive (sq_t (q_sq s0)) s1)))). rewrite B. reflexivity.
Qed.

(** ** What an evolution does to switches and step *)

Lemma x_fixed (A : Type) (f : nus -> A) x : (forall s, f (but_x s) = f s) -> stable (keeps f) (pre_derive x).
Proof.
  intros H s. pose proof (pre_derive_but_x x s) as B. unfold keeps in *.
  rewrite <- (H (out_obj (pre_derive x s))), B. apply H.
Qed.

Lemma evolve_keeps (A : Type) (f : nus -> A) dt : (forall s, f (but_x s) = f s) ->
  (forall v s, f (put_sq_state v s) = f s) -> (forall v s, f (put_sq_t v s) = f s) ->
  stable (keeps f) (evolve e dt).
Proof.
  intros H1 H2 H3. assert (R : forall s, keeps f s s) by reflexivity.
  assert (T : forall a b c, keeps f a b -> keeps f b c -> keeps f a c) by (apply keeps_trans).
  assert (U : forall v w s, f (put_sq_state v (put_sq_t w s)) = f s) by (intros; rewrite H2; apply H3).
  unfold evolve. apply (st_read _). intros s0. apply (st_seq _ T); [apply st_emit, R|].
  destruct (sq_num (q_sq s0)).
  - destruct (e_solve e s0 dt) as [[[ts ok] t'] st].
    apply (st_seq _ T); [apply (st_meach _ R T); intro; apply x_fixed, H1|].
    destruct ok; [|apply (st_seq _ T); [|apply st_throw, R]]; apply st_modify; intro; apply U.
  - apply (st_seq _ T); [apply st_modify; intro; apply H3|]. apply (st_read _). intro. apply x_fixed, H1.
Qed.

Lemma tail_keeps (A : Type) (f : nus -> A) b t s0 : (forall s, f (but_x s) = f s) ->
  (forall v s, f (put_sq_state v s) = f s) -> (forall v s, f (put_sq_t v s) = f s) ->
  (shortcut b s0 = true -> forall s, f (put_o_basis BMass (put_sq_num false (put_o_full true s))) = f s) ->
  stable (keeps f) (tail_ e b t s0).
Proof.
  intros H1 H2 H3 H4. assert (R : forall s, keeps f s s) by reflexivity.
  assert (T : forall a b c, keeps f a b -> keeps f b c -> keeps f a c) by (apply keeps_trans).
  assert (V : forall dt, stable (keeps f) (evolve e dt)) by (intro; apply evolve_keeps; assumption).
  assert (P : stable (keeps f) (positivize e)).
  { unfold positivize. apply (st_seq _ T); [apply st_emit, R|]. apply st_modify. intro. apply H2. }
  unfold tail_. destruct (shortcut b s0).
  - intro s. rewrite evolve_const_eq. set (s1 := put_o_basis BMass _).
    assert (K : stable (keeps f) (evolve e (tr_fin t - tr_ini t) ;;
      modify (fun s => put_sq_state (e_const e s (tr_fin t - tr_ini t)) s))%m).
    { apply (st_seq _ T); [apply V|]. apply st_modify. intro. apply H2. }
    apply (T s s1); [apply H4; reflexivity|apply K].
  - destruct (o_pos (q_opts s0)); [|apply V].
    unfold evolve_pos. apply (st_read _). intro s1. cbv zeta.
    destruct (_ || _); [|apply st_undef, R]. destruct (to_int _); [|apply st_undef, R].
    apply (st_seq _ T); [apply (st_mfor _ R T); intro; apply (st_seq _ T); [apply V|exact P]|].
    apply (st_seq _ T); [apply V|exact P].
Qed.

(** the preparation, seen through a view of everything but interaction data *)
Lemma evolve_state_view (A : Type) (f : nus -> A) s : (forall s, f (but_ints s) = f s) ->
  (forall s, f (but_x s) = f s) ->
  (forall v s, f (put_sq_state v s) = f s) -> (forall v s, f (put_sq_t v s) = f s) ->
  (forall b, q_body s = Some b -> shortcut b s = true ->
     forall s, f (put_o_basis BMass (put_sq_num false (put_o_full true s))) = f s) ->
  f (out_obj (evolve_state e s)) = f s \/
  exists t, q_track s = Some t /\ f (out_obj (evolve_state e s)) = f (put_sq_h (turned t s) s).
Proof.
  intros H0 H1 H2 H3 H4.
  destruct (q_body s) as [b|] eqn:B; [|left; unfold evolve_state, read; rewrite B; reflexivity].
  destruct (q_track s) as [t|] eqn:T.
  2:{ left. unfold evolve_state, read. rewrite B, T. destruct (negb _); reflexivity. }
  rewrite (evolve_state_eq e b t s B T). destruct (has_all s); [|left; reflexivity].
  rewrite seq_eq. destruct (prep_cases e t s) as (r & s1 & P & U & D & N). rewrite P.
  destruct r.
  - right. exists t. split; [reflexivity|]. specialize (D eq_refl).
    assert (K : stable (keeps f) (tail_ e b t s)).
    { apply tail_keeps; try assumption. intros SH. exact (H4 b eq_refl SH). }
    specialize (K s1). unfold keeps in K. destruct (tail_ e b t s s1) as [[r s2] e2]. cbn in *.
    rewrite K. rewrite <- (H0 s1), D. apply H0.
  - left. specialize (N ltac:(discriminate)). cbn. rewrite <- (H0 s1), N. apply H0.
  - exfalso. exact (U u eq_refl).
Qed.

Lemma switches_evolve s : switches (out_obj (exec e CEvolve s)) = switches s.
Proof.
  cbn [exec]. destruct (evolve_state_view _ switches s) as [X|(t & _ & X)]; try reflexivity; exact X.
Qed.

(** the step after an evolution *)
Lemma step_evolve s : sq_h (q_sq (out_obj (exec e CEvolve s))) = sq_h (q_sq s) \/
  exists t, q_track s = Some t /\ sq_h (q_sq (out_obj (exec e CEvolve s))) = turned t s.
Proof.
  cbn [exec]. destruct (evolve_state_view _ (fun s => sq_h (q_sq s)) s) as [X|(t & T & X)]; try reflexivity; [left; exact X|].
  right. exists t. split; [exact T|exact X].
Qed.

(** without the shortcut an evolution changes neither numerics nor basis *)
Lemma num_evolve s : o_const (q_opts s) = false ->
  sq_num (q_sq (out_obj (exec e CEvolve s))) = sq_num (q_sq s) /\
  q_opts (out_obj (exec e CEvolve s)) = q_opts s.
Proof.
  intro C. cbn [exec].
  destruct (evolve_state_view _ (fun s => (sq_num (q_sq s), q_opts s)) s) as [X|(t & T & X)]; try reflexivity.
  - intros b _ SH. unfold shortcut in SH. rewrite C, andb_false_r in SH. discriminate SH.
  - injection X as X1 X2. auto.
  - cbn in X. injection X as X1 X2. auto.
Qed.

(** ** Events of the other calls *)

Lemma other_events c s : wf e s -> is_evolve c = false -> c <> CHamiltonian -> out_evs (exec e c s) = [].
Proof.
  intros W V H. destruct (is_init c) eqn:I.
  { destruct (init_cases e c s W I) as [Y|(tr & s1 & _ & Y & _)]; rewrite Y; reflexivity. }
  destruct (is_param c) eqn:P.
  { destruct (param_cases e c s W P) as [Y|(s1 & Y & _)]; rewrite Y; reflexivity. }
  destruct c; try discriminate I; try discriminate P; try discriminate V; try congruence; cbn [exec];
    try (unfold set_body, set_track, set_osc, set_pos, set_scale, set_const, set_tau, set_gr,
      set_basis, set_sources, set_xs, read, modify, throw, undef;
      repeat match goal with |- context [match ?b with _ => _ end] => destruct b end; reflexivity).
  apply (init_events e s).
Qed.

(** ** Evolutions with positivity enforcement that succeed *)

Lemma looks_ok_triple x : triple looks_ok (fun _ => True) (fun r => r = Done) (pre_derive x).
Proof.
  intros s L. split; [|split; [apply Forall_forall; auto|apply pre_derive_ok, L]].
  eapply looks_ok_x; [apply pre_derive_but_x|exact L].
Qed.

Lemma evolve_ok_triple dt : (forall s1 dt, snd (fst (fst (e_solve e s1 dt))) = true) ->
  triple looks_ok (fun _ => True) (fun r => r = Done) (evolve e dt).
Proof.
  intro SV. unfold evolve. apply tr_read. intros s L. apply tr_seq; [apply tr_emit; [reflexivity|exact I]|].
  destruct (sq_num (q_sq s)).
  - specialize (SV s dt). destruct (e_solve e s dt) as [[[ts ok] t'] st]. cbn in SV. subst ok.
    apply tr_seq; [apply tr_meach; [reflexivity|intro; apply looks_ok_triple]|].
    apply tr_modify; [reflexivity|]. intros s1 L1. exact L1.
  - apply tr_seq; [apply tr_modify; [reflexivity|intros s1 L1; exact L1]|]. apply tr_read.
    intros s1 _. apply looks_ok_triple.
Qed.

Lemma evolve_pos_ok t s : (forall s1 dt, snd (fst (fst (e_solve e s1 dt))) = true) ->
  looks_ok s -> o_scale (q_opts s) <> 0 -> to_int ((tr_fin t - tr_ini t) / o_scale (q_opts s)) <> None ->
  out_res (evolve_pos e t s) = Done.
Proof.
  intros SV L Z N. unfold evolve_pos, read. cbv zeta.
  assert (X : rlt 0 (o_scale (q_opts s)) || rlt (o_scale (q_opts s)) 0 = true).
  { destruct (Rtotal_order 0 (o_scale (q_opts s))) as [Y|[Y|Y]].
    - rewrite (rlt_true _ _ Y). reflexivity.
    - congruence.
    - rewrite (rlt_true _ _ Y). apply orb_true_r. }
  rewrite X. destruct (to_int _) as [n|]; [|congruence].
  assert (P : triple looks_ok (fun _ => True) (fun r => r = Done) (positivize e)).
  { apply tr_seq; [apply tr_emit; [reflexivity|exact I]|]. apply tr_modify; [reflexivity|]. intros s1 L1. exact L1. }
  assert (K : triple looks_ok (fun _ => True) (fun r => r = Done)
    (mfor (Z.to_nat n) 0 (fun _ => evolve e (o_scale (q_opts s)) ;; positivize e) ;;
      evolve e (tr_fin t - o_scale (q_opts s) * IZR n) ;; positivize e)%m).
  { apply tr_seq; [apply tr_mfor; [reflexivity|]; intro; apply tr_seq; [apply evolve_ok_triple, SV|exact P]|].
    apply tr_seq; [apply evolve_ok_triple, SV|exact P]. }
  apply (K s L).
Qed.

(** casts of whole numbers *)
Lemma Int_part_IZR z : Int_part (IZR z) = z.
Proof.
  unfold Int_part. rewrite <- (tech_up (IZR z) (z + 1)); [lia| |]; rewrite plus_IZR; lra.
Qed.

Lemma to_int_IZR z : (0 <= z <= int_max)%Z -> to_int (IZR z) = Some z.
Proof.
  intro H. unfold to_int, rtrunc. rewrite (rle_true 0 (IZR z)) by (apply IZR_le; lia).
  rewrite Int_part_IZR. unfold int_max in *.
  destruct (_ && _) eqn:X; [reflexivity|]. apply andb_false_iff in X. rewrite !Z.leb_gt in X. lia.
Qed.

Lemma to_int_nonneg r n : 0 <= r -> to_int r = Some n -> (0 <= n)%Z.
Proof.
  intros H. unfold to_int, rtrunc. rewrite (rle_true 0 r H).
  destruct (_ && _); [|discriminate]. injection 1 as <-.
  assert (X : IZR (Int_part r) > -1) by (pose proof (base_Int_part r); lra).
  apply Rgt_lt in X. apply lt_IZR in X. lia.
Qed.

End Machine.

(** * Objects that evolve without interactions *)
Section Able.
Variable e : env.

Record able (b : body) (t : track) (off : R) (s : nus) : Prop := {
  ab_body : q_body s = Some b; ab_track : q_track s = Some t; ab_offset : q_offset s = Some off;
  ab_all : has_all s = true; ab_int : o_int (q_opts s) = false; ab_src : o_src (q_opts s) = false;
  ab_pos : shortcut b s = true \/ o_pos (q_opts s) = false }.

Lemma has_all_keep s s' : core s' = core s -> place s' = place s -> has_all s' = has_all s.
Proof.
  intros C P. unfold core in C. unfold place in P. injection C as _ _ _ _ _ _ _ _ _ C10 C11.
  injection P as _ _ _ P4 P5. unfold has_all. congruence.
Qed.

Lemma able_keep b t off s s' : core s' = core s -> place s' = place s -> switches s' = switches s ->
  able b t off s -> able b t off s'.
Proof.
  intros C P S A. pose proof (has_all_keep _ _ C P) as HA. unfold place in P. injection P as P1 P2 P3 _ _.
  unfold switches in S. injection S as S1 S2 S3 S4 S5 S6 S7 S8.
  destruct A as [A1 A2 A3 A4 A5 A6 A7]. constructor; try congruence.
  unfold shortcut in *. rewrite S1, S6, S5. exact A7.
Qed.

(** such an object can be evolved, again and again *)
Lemma able_evolve b t off s : (forall s1 dt, snd (fst (fst (e_solve e s1 dt))) = true) -> able b t off s ->
  exists s' ev, exec e CEvolve s = (Done, s', ev) /\ able b t off s' /\
    sq_t (q_sq s') = sq_t (q_sq s) + (tr_fin t - tr_ini t) /\
    sq_h (q_sq s') = turned t s /\ sq_num (q_sq s') = step_num b s /\ switches s' = switches s /\
    (exists dt, In (EvEvolve dt (turned t s) (step_num b s) (step_basis b s)) ev) /\
    ((forall s1, sq_num (q_sq s1) = true -> sq_t (q_sq s1) = sq_t (q_sq s) ->
      In (sq_t (q_sq s1) + (tr_fin t - tr_ini t)) (fst (fst (fst (e_solve e s1 (tr_fin t - tr_ini t)))))) ->
     exists p, In (EvQuery b (sq_t (q_sq s) + (tr_fin t - tr_ini t)) p) ev) /\
    (step_num b s = false -> shortcut b s = false -> sq_state (q_sq s') = sq_state (q_sq s)).
Proof.
  intros SV A. pose proof A as A0. destruct A as [B T O HA OI OS SP].
  destruct (evolve_state_ok e s b t off B T O HA OI OS SP SV) as (s' & ev & E).
  exists s', ev. split; [exact E|].
  pose proof (core_exec e CEvolve eq_refl eq_refl s) as C. rewrite E in C. unfold core_keeps, keeps in C. cbn in C.
  pose proof (place_exec e CEvolve eq_refl eq_refl s) as P. rewrite E in P. unfold place_keeps, keeps in P. cbn in P.
  pose proof (switches_evolve e s) as S. rewrite E in S. cbn [out_obj fst snd] in S.
  split; [exact (able_keep _ _ _ _ _ C P S A0)|].
  pose proof E as E0. cbn [exec] in E.
  destruct (evolve_state_done e b t off s s' ev B T O E SP) as (CL & _). split; [exact CL|].
  destruct (evolve_state_events e b t off s B T O) as (_ & R). rewrite E in R. cbn in R.
  destruct (R eq_refl) as (_ & R1 & R2 & _). split; [exact R1|]. split; [exact R2|]. split; [exact S|].
  rewrite (evolve_state_eq e b t s B T), HA in E. rewrite seq_eq in E.
  destruct (prep_cases e t s) as (r & s1 & PR & U & D & _). rewrite PR in E.
  destruct r; try discriminate E. specialize (D eq_refl).
  assert (O1 : q_opts s1 = q_opts s) by (change (q_opts s1) with (q_opts (but_ints s1)); rewrite D; reflexivity).
  assert (Q1 : q_sq s1 = set_sq_h (turned t s) (q_sq s)) by (change (q_sq s1) with (q_sq (but_ints s1)); rewrite D; reflexivity).
  assert (AP : at_place b off s1).
  { split; [change (q_body s1) with (q_body (but_ints s1))|change (q_offset s1) with (q_offset (but_ints s1))]; rewrite D; assumption. }
  assert (T1 : q_track s1 = Some t) by (change (q_track s1) with (q_track (but_ints s1)); rewrite D; exact T).
  (* queries of one step *)
  assert (QU : forall dt s1 s2 e2, at_place b off s1 -> q_track s1 = Some t -> evolve e dt s1 = (Done, s2, e2) ->
    (sq_num (q_sq s1) = true -> In (sq_t (q_sq s1) + dt) (fst (fst (fst (e_solve e s1 dt))))) ->
    exists p, In (EvQuery b (sq_t (q_sq s1) + dt) p) e2).
  { clear. intros dt s1 s2 e2 AP T1 E IN.
    assert (PD : forall x s s' ev, at_place b off s -> q_track s = Some t -> pre_derive x s = (Done, s', ev) ->
      In (EvQuery b x (x - off)) ev).
    { clear. intros x s s' ev (B & O) T E. unfold pre_derive, read in E. rewrite T, O, B in E.
      rewrite seq_modify in E. rewrite seq_eq in E. unfold emit in E. cbn iota in E.
      set (m := (when _ _ ;; _)%m) in E. destruct (m (set_q_x (x - off) s)) as [[r s1] e1].
      injection E as _ _ <-. left. reflexivity. }
    assert (ME : forall ts x s s' ev, at_place b off s -> q_track s = Some t ->
      meach ts pre_derive s = (Done, s', ev) -> In x ts -> In (EvQuery b x (x - off)) ev).
    { clear - PD. induction ts as [|y ts IH]; intros x s s' ev AP T E IN; [destruct IN|].
      cbn [meach] in E. rewrite seq_eq in E.
      pose proof (pre_derive_but_x y s) as BX. unfold keeps in BX.
      destruct (pre_derive y s) as [[r s1] e1] eqn:E1. destruct r; try discriminate E.
      destruct (meach ts pre_derive s1) as [[r s2] e2] eqn:E2. injection E as -> <- <-.
      apply in_or_app. destruct IN as [->|IN]; [left; eapply PD; eassumption|right].
      cbn in BX. eapply (IH x s1); [| |exact E2|exact IN].
      - pose proof (but_x_place _ _ BX) as P. unfold place in P. injection P as P1 P2 P3 _ _.
        destruct AP. split; congruence.
      - pose proof (but_x_place _ _ BX) as P. unfold place in P. injection P as P1 P2 P3 _ _. congruence. }
    unfold evolve, read in E. rewrite seq_eq in E. unfold emit in E. destruct (sq_num (q_sq s1)) eqn:NM.
    - specialize (IN eq_refl). destruct (e_solve e s1 dt) as [[[ts ok] t'] st]. cbn in IN. rewrite seq_eq in E.
      destruct (meach ts pre_derive s1) as [[r s3] e3] eqn:E3. destruct r; try discriminate E.
      destruct ok; [|discriminate E]. cbn in E. injection E as <- <-. exists (sq_t (q_sq s1) + dt - off).
      right. apply in_or_app. left. eapply ME; eassumption.
    - rewrite seq_modify in E. unfold read in E. set (s3 := put_sq_t _ s1) in E.
      destruct (pre_derive (sq_t (q_sq s3)) s3) as [[r s4] e4] eqn:E4. injection E as -> <- <-.
      exists (sq_t (q_sq s1) + dt - off). right.
      exact (PD (sq_t (q_sq s1) + dt) s3 s4 e4 AP T1 E4). }
  destruct (tail_ e b t s s1) as [[r s2] e2] eqn:TL. cbn in E. injection E as -> <- <-.
  unfold tail_, step_num, step_basis in *. destruct (shortcut b s) eqn:SH.
  - rewrite evolve_const_eq, seq_eq in TL. set (s3 := put_o_basis _ _) in TL.
    pose proof (evolve_events e b off (tr_fin t - tr_ini t) s3) as (_ & evs & X1 & _); [exact AP|].
    destruct (evolve e (tr_fin t - tr_ini t) s3) as [[r s4] e4] eqn:E4. destruct r; try discriminate TL.
    unfold modify in TL. rewrite app_nil_r in TL. injection TL as <- <-. cbn in X1. subst e4.
    split; [|split; [|discriminate]].
    + exists (tr_fin t - tr_ini t). left. rewrite Q1. reflexivity.
    + intros _. replace (sq_t (q_sq s)) with (sq_t (q_sq s3)) by (cbn; rewrite Q1; reflexivity).
      apply (QU _ s3 s4 _ AP T1 E4). cbn. discriminate.
  - destruct SP as [SP|SP]; [discriminate SP|]. rewrite SP in TL.
    pose proof (evolve_events e b off (tr_fin t - tr_ini t) s1 AP) as (_ & evs & X1 & _).
    rewrite TL in X1. cbn in X1. subst e2. split; [|split].
    + exists (tr_fin t - tr_ini t). left. rewrite Q1, O1. reflexivity.
    + intro IN. replace (sq_t (q_sq s)) with (sq_t (q_sq s1)) by (rewrite Q1; reflexivity).
      apply (QU _ s1 s2 _ AP T1 TL). intro N. apply IN; [exact N|]. rewrite Q1. reflexivity.
    + intros N _. destruct (evolve_done e _ _ _ _ TL) as (_ & X & _). rewrite X by (rewrite Q1; exact N).
      rewrite Q1. reflexivity.
Qed.

Lemma ready_able E numneu x b t s : ready e E numneu false x b t s -> able b t 0 s.
Proof.
  intros (R & FS). unfold rest in R. injection R as R1 R2 R3 R4 R5 R6 R7 R8 R9 R10 R11 R12 R13 R14 R15 R16.
  constructor; try assumption; rewrite ?R7; try reflexivity.
  - unfold has_all. rewrite R14, R15, R16, FS. reflexivity.
  - right. reflexivity.
Qed.

End Able.
