(** What one evolution does: steps, clock, events. *)
From Coq Require Import Reals List Arith Bool ZArith Lia Lra.
From Verif Require Import IntModel XsModel XsProofs StateModel StateProofs StateHistory.
Import ListNotations.
Open Scope R_scope.

Ltac dest_nus s :=
  destruct s as [? ? ? ? ? [? ? ?] [? ? ? ? ?] [? ? ? ? ? ? ? ? ? ?] [? ? ? ? ? ? ? ?] [? ? ? ? ?] ? ? ? ? ? ?].

(** ** Looking at the medium changes only the position *)

Definition but_x (s : nus) : nus := set_q_x 0 s.
Definition but_ints (s : nus) : nus := set_q_ints (Ints None None false 0 0 0 None 0) s.

Lemma keeps_r A (f : nus -> A) : forall s, keeps f s s. Proof. reflexivity. Qed.
Lemma keeps_t A (f : nus -> A) : forall a b c, keeps f a b -> keeps f b c -> keeps f a c.
Proof. apply keeps_trans. Qed.

Lemma pre_derive_but_x x : stable (keeps but_x) (pre_derive x).
Proof. unfold pre_derive, use_interactions. stab_with (keeps_r _ but_x) (keeps_t _ but_x). Qed.

Lemma meach_but_x ts : stable (keeps but_x) (meach ts pre_derive).
Proof. apply st_meach; [apply keeps_r|apply keeps_t|intro; apply pre_derive_but_x]. Qed.

Lemma but_x_place s s' : but_x s' = but_x s -> place s' = place s.
Proof. intro H. change (place s') with (place (but_x s')). rewrite H. reflexivity. Qed.

(** an event that is not an integration step *)
Definition no_step (ev : event) : Prop := match ev with EvEvolve _ _ _ _ => False | _ => True end.

(** ** Events of a look at the medium *)

Definition query_at (b : body) (off : R) (ev : event) : Prop :=
  match ev with EvQuery b' x p => b' = b /\ p = x - off | EvEvolve _ _ _ _ => False | _ => True end.

Definition at_place (b : body) (off : R) (s : nus) : Prop := q_body s = Some b /\ q_offset s = Some off.

Lemma use_interactions_events s : Forall (fun ev => match ev with EvTables _ => True | _ => False end)
  (out_evs (use_interactions s)) /\ out_obj (use_interactions s) = s.
Proof.
  unfold use_interactions, read, seq_, ret, emit, undef.
  destruct (i_tabs (q_ints s)) as [t|]; [|repeat split; constructor].
  destruct (tb_fill t).
  - repeat split; constructor.
  - destruct (o_osc (q_opts s)).
    + destruct (_ && _ && _); cbn; repeat split; repeat constructor.
    + destruct (i_cache (q_ints s)) as [[r n]|]; [destruct (_ && _)|]; cbn; repeat split; repeat constructor.
  - destruct (o_osc (q_opts s)).
    + destruct (_ && _ && _); cbn; repeat split; repeat constructor.
    + destruct (i_cache (q_ints s)) as [[r n]|]; [destruct (_ && _)|]; cbn; repeat split; repeat constructor.
Qed.

Lemma pre_derive_query b off x s : at_place b off s ->
  at_place b off (out_obj (pre_derive x s)) /\ Forall (query_at b off) (out_evs (pre_derive x s)).
Proof.
  intros (B & O). split.
  - pose proof (but_x_place _ _ (pre_derive_but_x x s)) as P. unfold place in P. injection P as P1 _ P3 _ _.
    split; congruence.
  - unfold pre_derive, read. rewrite B, O. destruct (q_track s) as [t|]; [|constructor].
    rewrite seq_eq. unfold modify. rewrite seq_eq. unfold emit. rewrite seq_eq.
    set (s1 := set_q_x _ s).
    assert (K : Forall (query_at b off) (out_evs (when (o_int (q_opts s)) use_interactions s1))).
    { unfold when. destruct (o_int (q_opts s)); [|constructor].
      eapply Forall_impl; [|apply use_interactions_events]. intros []; cbn; tauto. }
    unfold when at 1.
    destruct (o_src (q_opts s)); [destruct (Nat.eqb _ _)|]; cbn [ret undef out_evs snd app].
    all: try (repeat constructor; fail).
    all: unfold out_evs in K; destruct (when (o_int (q_opts s)) use_interactions s1) as [[r s2] e2];
         cbn in *; constructor; [split; reflexivity|exact K].
Qed.

Lemma meach_query b off ts s : at_place b off s ->
  at_place b off (out_obj (meach ts pre_derive s)) /\ Forall (query_at b off) (out_evs (meach ts pre_derive s)).
Proof.
  revert s. induction ts as [|x ts IH]; intros s H; cbn [meach].
  - split; [exact H|constructor].
  - rewrite seq_eq. destruct (pre_derive_query b off x s H) as (H1 & K1).
    destruct (pre_derive x s) as [[r s1] e1]. cbn in H1, K1.
    destruct r; [|split; assumption|split; assumption].
    destruct (IH s1 H1) as (H2 & K2). destruct (meach ts pre_derive s1) as [[r s2] e2].
    cbn in *. split; [exact H2|]. apply Forall_app. auto.
Qed.

(** where the last look was *)
Lemma pre_derive_x x s s' ev off : q_offset s = Some off ->
  pre_derive x s = (Done, s', ev) -> q_x s' = x - off.
Proof.
  intros O E. unfold pre_derive, read in E. rewrite O in E.
  destruct (q_track s) as [t|]; [|discriminate E].
  rewrite seq_eq in E. unfold modify in E. destruct (q_body s) as [b|]; [|discriminate E].
  rewrite seq_eq in E. unfold emit in E. rewrite seq_eq in E. set (s1 := set_q_x _ s) in E.
  pose proof (use_interactions_events s1) as (_ & U).
  assert (K : out_obj (when (o_int (q_opts s)) use_interactions s1) = s1).
  { unfold when. destruct (o_int (q_opts s)); [exact U|reflexivity]. }
  unfold when at 1 in E. destruct (o_src (q_opts s)); [destruct (Nat.eqb _ _)|];
    cbn [ret undef] in E; try discriminate E.
  all: unfold out_obj in K; destruct (when (o_int (q_opts s)) use_interactions s1) as [[r s2] e2];
       cbn in *; subst s2; injection E as -> <- <-; reflexivity.
Qed.

Lemma meach_x ts t s s' ev off : q_offset s = Some off ->
  meach (ts ++ [t]) pre_derive s = (Done, s', ev) -> q_x s' = t - off.
Proof.
  revert s ev. induction ts as [|x ts IH]; intros s ev O E; cbn [meach app] in E; rewrite seq_eq in E.
  - destruct (pre_derive t s) as [[r s1] e1] eqn:E1. destruct r; try discriminate E.
    cbn in E. injection E as <- <-. eapply pre_derive_x; eassumption.
  - pose proof (but_x_place _ _ (pre_derive_but_x x s)) as P.
    destruct (pre_derive x s) as [[r s1] e1] eqn:E1. destruct r; try discriminate E.
    destruct (meach (ts ++ [t]) pre_derive s1) as [[r2 s2] e2] eqn:E2.
    injection E as -> <- <-. cbn in P. unfold place in P. injection P as _ _ P3 _ _.
    eapply IH; [|exact E2]. congruence.
Qed.

(** ** What can be made of the outcome of a look *)

Lemma pre_derive_no_throw x s : out_res (pre_derive x s) <> Threw.
Proof.
  unfold pre_derive, read. destruct (q_track s); [|discriminate].
  destruct (q_offset s); [|discriminate]. rewrite seq_eq. unfold modify.
  destruct (q_body s) as [b|]; [|discriminate].
  rewrite seq_eq. unfold emit. rewrite seq_eq. set (s1 := set_q_x _ s).
  assert (U : out_res (use_interactions s1) <> Threw).
  { unfold use_interactions, read, seq_, ret, emit, undef.
    destruct (i_tabs (q_ints s1)) as [tb|]; [|discriminate].
    destruct (tb_fill tb); [discriminate| |].
    all: destruct (o_osc (q_opts s1)); [destruct (_ && _ && _); discriminate|].
    all: destruct (i_cache (q_ints s1)) as [[r0 n]|]; [destruct (_ && _)|]; discriminate. }
  unfold when. destruct (o_src (q_opts s)); [destruct (Nat.eqb _ _)|]; cbn [ret undef];
    try discriminate; destruct (o_int (q_opts s)); cbn [ret];
    unfold out_res in *; try (destruct (use_interactions s1) as [[[| |] s2] e2]); cbn in *; congruence.
Qed.

Lemma meach_no_throw ts : forall s, out_res (meach ts pre_derive s) <> Threw.
Proof.
  induction ts as [|x ts IH]; intro s; cbn [meach]; [discriminate|].
  rewrite seq_eq. pose proof (pre_derive_no_throw x s) as N. unfold out_res in *.
  destruct (pre_derive x s) as [[r s1] e1]. cbn in N. destruct r; cbn; try congruence.
  specialize (IH s1). destruct (meach ts pre_derive s1) as [[r s2] e2]. exact IH.
Qed.

Section Machine.
Variable e : env.

(** ** One call of SQuIDS::Evolve *)

Lemma evolve_events b off dt s : at_place b off s ->
  at_place b off (out_obj (evolve e dt s)) /\
  exists evs, out_evs (evolve e dt s) = EvEvolve dt (sq_h (q_sq s)) (sq_num (q_sq s)) (o_basis (q_opts s)) :: evs
    /\ Forall (query_at b off) evs.
Proof.
  intro H. unfold evolve, read. rewrite seq_eq. unfold emit.
  destruct (sq_num (q_sq s)).
  - destruct (e_solve e s dt) as [[[ts ok] t'] st]. rewrite seq_eq.
    destruct (meach_query b off ts s H) as (H1 & K1).
    destruct (meach ts pre_derive s) as [[r s1] e1]. cbn in H1, K1.
    destruct r; [|cbn; eauto|cbn; eauto].
    destruct ok; cbn; (split; [exact H1|]); exists (e1 ++ []); rewrite ?app_nil_r; auto.
  - rewrite seq_eq. unfold modify, read. set (s1 := put_sq_t _ s).
    assert (H1 : at_place b off s1) by exact H.
    destruct (pre_derive_query b off (sq_t (q_sq s1)) s1 H1) as (H2 & K2).
    destruct (pre_derive (sq_t (q_sq s1)) s1) as [[r s2] e2]. cbn in *. eauto.
Qed.

(** after a successful step *)
Lemma evolve_done dt s s' ev : evolve e dt s = (Done, s', ev) ->
  but_x s' = but_x (put_sq_state (sq_state (q_sq s')) (put_sq_t (sq_t (q_sq s) + dt) s)) /\
  (sq_num (q_sq s) = false -> sq_state (q_sq s') = sq_state (q_sq s)) /\
  (forall off, q_offset s = Some off ->
     (sq_num (q_sq s) = true -> exists ts, fst (fst (fst (e_solve e s dt))) = ts ++ [sq_t (q_sq s) + dt]) ->
     q_x s' = sq_t (q_sq s) + dt - off).
Proof.
  intro E. unfold evolve, read in E. rewrite seq_eq in E. unfold emit in E.
  destruct (sq_num (q_sq s)) eqn:NM.
  - destruct (e_solve e s dt) as [[[ts ok] t'] st] eqn:SV. rewrite seq_eq in E.
    pose proof (meach_but_x ts s) as K.
    destruct (meach ts pre_derive s) as [[r s1] e1] eqn:E1. unfold keeps in K. cbn in K.
    destruct r; try discriminate E. destruct ok; [|discriminate E].
    cbn [modify app] in E. injection E as <- <-.
    assert (Q : q_sq s1 = q_sq s) by (change (q_sq s1) with (q_sq (but_x s1)); rewrite K; reflexivity).
    split; [|split].
    + cbn [put_sq_state put_sq_t set_q_sq q_sq sq_state set_sq_state set_sq_t]. rewrite Q.
      change (but_x (put_sq_state st (put_sq_t (sq_t (q_sq s) + dt) s1)))
        with (put_sq_state st (put_sq_t (sq_t (q_sq s) + dt) (but_x s1))).
      rewrite K. reflexivity.
    + discriminate.
    + intros off O X. destruct (X eq_refl) as (ts0 & T0). cbn in T0. subst ts.
      cbn [put_sq_state put_sq_t set_q_sq q_x]. eapply meach_x; eassumption.
  - rewrite seq_eq in E. unfold modify, read in E. set (s1 := put_sq_t _ s) in E.
    pose proof (pre_derive_but_x (sq_t (q_sq s1)) s1) as K.
    destruct (pre_derive (sq_t (q_sq s1)) s1) as [[r s2] e2] eqn:E2. unfold keeps in K. cbn in K.
    cbn [app] in E. injection E as -> <- <-.
    assert (Q : q_sq s2 = q_sq s1) by (change (q_sq s2) with (q_sq (but_x s2)); rewrite K; reflexivity).
    split; [|split].
    + rewrite K, Q. unfold s1. dest_nus s. reflexivity.
    + intros _. rewrite Q. reflexivity.
    + intros off O _. change (q_offset s) with (q_offset s1) in O.
      rewrite (pre_derive_x _ _ _ _ off O E2). reflexivity.
Qed.

(** ** EvolveState in two parts *)

Definition prep (t : track) : M := read (fun s =>
  (when (o_int (q_opts s) && negb (i_done (q_ints s))) (init_interactions e) ;;
   when (negb (o_osc (q_opts s)) && o_int (q_opts s))
     (modify (fun s => put_i_cache (Some (q_nrhos s, q_ne s)) s)) ;;
   when (rlt (tr_fin t) (tr_ini t))
     (modify (fun s => put_sq_h (-1 * sq_h (q_sq s)) s)))%m).

Definition shortcut (b : body) (s : nus) : bool :=
  b_const b && negb (o_int (q_opts s)) && o_const (q_opts s).

Definition tail_ (b : body) (t : track) (s : nus) : M :=
  if shortcut b s then evolve_const e (tr_fin t - tr_ini t)
  else if o_pos (q_opts s) then evolve_pos e t
  else evolve e (tr_fin t - tr_ini t).

(** the object has all it needs *)
Definition has_all (s : nus) : bool :=
  f_body (q_flags s) && f_track (q_flags s) && f_state (q_flags s) && f_energy (q_flags s).

Lemma seq_assoc a b c s : ((a ;; b) ;; c)%m s = (a ;; (b ;; c))%m s.
Proof.
  rewrite !seq_eq. destruct (a s) as [[r s1] e1]. destruct r; try reflexivity.
  rewrite seq_eq. destruct (b s1) as [[r s2] e2]. destruct r; try reflexivity.
  destruct (c s2) as [[r s3] e3]. rewrite app_assoc. reflexivity.
Qed.

Lemma evolve_state_eq b t s : q_body s = Some b -> q_track s = Some t ->
  evolve_state e s = if has_all s then (prep t ;; tail_ b t s)%m s else (Threw, s, []).
Proof.
  intros B T. unfold evolve_state, read, has_all. rewrite B, T.
  destruct (f_body (q_flags s)); [|reflexivity]. destruct (f_track (q_flags s)); [|reflexivity].
  destruct (f_state (q_flags s)); [|reflexivity]. destruct (f_energy (q_flags s)); [|reflexivity].
  cbn [negb andb]. unfold prep.
  change ((read ?f ;; tail_ b t s)%m s) with ((f s ;; tail_ b t s)%m s).
  cbv beta. rewrite seq_assoc. rewrite !seq_eq.
  destruct (when (o_int (q_opts s) && negb (i_done (q_ints s))) (init_interactions e) s) as [[r s1] e1].
  destruct r; try reflexivity. rewrite seq_assoc. reflexivity.
Qed.

(** the preparation changes only interaction data and the sign of the step *)
Definition turned (t : track) (s : nus) : R := if rlt (tr_fin t) (tr_ini t) then -1 * sq_h (q_sq s) else sq_h (q_sq s).

Lemma init_but_ints : stable (keeps but_ints) (init_interactions e).
Proof. unfold init_interactions, build_tables. stab_with (keeps_r _ but_ints) (keeps_t _ but_ints). Qed.

(** no events, and the outcome is defined *)
Definition quiet (x : res * nus * list event) : Prop := out_evs x = [] /\ forall u, out_res x <> Undef u.

Lemma quiet_seq a b s : quiet (a s) -> (forall s1, quiet (b s1)) -> quiet ((a ;; b)%m s).
Proof.
  intros (A1 & A2) B. rewrite seq_eq. destruct (a s) as [[r s1] e1]. cbn in A1, A2. subst e1.
  destruct r; [|split; [reflexivity|exact A2]|exfalso; exact (A2 u eq_refl)].
  destruct (B s1) as (B1 & B2). destruct (b s1) as [[r s2] e2]. cbn in *. subst e2.
  split; [reflexivity|exact B2].
Qed.
Lemma quiet_ret s : quiet (ret s). Proof. split; [reflexivity|discriminate]. Qed.
Lemma quiet_throw s : quiet (throw s). Proof. split; [reflexivity|discriminate]. Qed.
Lemma quiet_modify f s : quiet (modify f s). Proof. split; [reflexivity|discriminate]. Qed.
Lemma quiet_when b m s : quiet (m s) -> quiet (when b m s).
Proof. destruct b; [tauto|intros _; apply quiet_ret]. Qed.

Lemma build_quiet s : quiet (build_tables e s).
Proof.
  unfold build_tables. rewrite seq_eq. unfold modify at 1. set (s1 := put_i_tabs _ s).
  rewrite seq_eq. unfold read at 1.
  assert (K : forall s x, i_ncs (q_ints s) = Some x -> quiet (read (fun s => match i_ncs (q_ints s) with
    | None => undef NullPtr
    | Some x =>
      let n := if x_proton x && x_neutron x then 2%nat
               else if x_iso x then 1%nat else 0%nat in
      if Nat.eqb n 0 then throw
      else
        (modify (put_i_tabs (Some (Tabs TPart n (x_name x) false))) ;;
        (if negb (x_valid x) then throw
         else if gr_on s && negb (x_electron x) then throw
         else modify (put_i_tabs (Some (Tabs TFull n (x_name x) (gr_on s))))))%m
    end) s)).
  { clear. intros s x X. unfold read. rewrite X. cbv zeta.
    destruct (Nat.eqb _ 0); [apply quiet_throw|].
    apply quiet_seq; [apply quiet_modify|]. intro s1.
    destruct (negb (x_valid x)); [apply quiet_throw|].
    destruct (_ && _); [apply quiet_throw|apply quiet_modify]. }
  destruct (i_ncs (q_ints s1)) as [x|] eqn:X.
  - unfold ret at 1. specialize (K s1 x X). destruct (read _ s1) as [[r s2] e2]. exact K.
  - destruct (e_default e) as [x|]; [|apply quiet_throw].
    unfold modify at 1. specialize (K (put_i_ncs (Some x) s1) x eq_refl).
    destruct (read _ (put_i_ncs (Some x) s1)) as [[r s2] e2]. exact K.
Qed.

Lemma init_events s : quiet (init_interactions e s).
Proof.
  unfold init_interactions, read at 1. destruct (i_done (q_ints s)); [apply quiet_ret|].
  destruct (e_tau e (q_E s)); [|apply quiet_throw]. cbn [negb].
  apply quiet_seq.
  - destruct (i_tabs (q_ints s)); [apply quiet_ret|apply build_quiet].
  - intro s1. apply quiet_seq; [|intro; apply quiet_modify]. unfold read. apply quiet_when.
    apply quiet_seq; [apply quiet_modify|]. intro. apply quiet_seq; [apply quiet_when, quiet_modify|].
    intro. apply quiet_when, quiet_modify.
Qed.

Lemma prep_cases t s : exists r s1, prep t s = (r, s1, []) /\ (forall u, r <> Undef u) /\
  (r = Done -> but_ints s1 = but_ints (put_sq_h (turned t s) s)) /\
  (r <> Done -> but_ints s1 = but_ints s).
Proof.
  unfold prep, read. rewrite seq_eq. unfold when at 1.
  assert (K : exists r s1, (if o_int (q_opts s) && negb (i_done (q_ints s)) then init_interactions e else ret) s
     = (r, s1, []) /\ (forall u, r <> Undef u) /\ but_ints s1 = but_ints s).
  { destruct (o_int (q_opts s) && negb (i_done (q_ints s))).
    - pose proof (init_but_ints s) as I. destruct (init_events s) as (V & U).
      destruct (init_interactions e s) as [[r s1] e1]. unfold keeps in I. cbn in *. subst e1. eauto.
    - exists Done, s. repeat split. discriminate. }
  destruct K as (r & s1 & -> & U & K).
  destruct r; [|exists Threw, s1; repeat split; try discriminate; intros _; exact K|exfalso; exact (U u eq_refl)].
  assert (H1 : sq_h (q_sq s1) = sq_h (q_sq s)).
  { change (sq_h (q_sq s1)) with (sq_h (q_sq (but_ints s1))). rewrite K. reflexivity. }
  rewrite seq_eq. unfold when, turned, modify, ret.
  destruct (negb (o_osc (q_opts s)) && o_int (q_opts s)), (rlt (tr_fin t) (tr_ini t)); cbn [app].
  all: eexists _, _; split; [reflexivity|]; split; [discriminate|]; split; [intros _|congruence].
  - change (but_ints (put_sq_h _ (put_i_cache (Some (q_nrhos s1, q_ne s1)) s1)))
      with (put_sq_h (-1 * sq_h (q_sq s1)) (but_ints s1)). rewrite K, H1. reflexivity.
  - change (but_ints (put_i_cache (Some (q_nrhos s1, q_ne s1)) s1)) with (but_ints s1).
    rewrite K. dest_nus s. reflexivity.
  - change (but_ints (put_sq_h _ s1)) with (put_sq_h (-1 * sq_h (q_sq s1)) (but_ints s1)).
    rewrite K, H1. reflexivity.
  - rewrite K. dest_nus s. reflexivity.
Qed.

(** ** Events and outcome of EvolveState *)

(** what no integration step changes *)
Definition fixed (s : nus) := (place s, sq_h (q_sq s), sq_num (q_sq s), q_opts s, q_ints s).

Lemma but_x_fixed s s' : but_x s' = but_x s -> fixed s' = fixed s.
Proof. intro H. change (fixed s') with (fixed (but_x s')). rewrite H. reflexivity. Qed.

Lemma pre_derive_fixed x : stable (keeps fixed) (pre_derive x).
Proof. intro s. apply but_x_fixed, pre_derive_but_x. Qed.

Lemma evolve_fixed dt : stable (keeps fixed) (evolve e dt).
Proof. unfold evolve. stab_with (keeps_r _ fixed) (keeps_t _ fixed); apply pre_derive_fixed. Qed.

Definition ev_ok (b : body) (off h : R) (num : bool) (bs : basis) (ev : event) : Prop :=
  match ev with
  | EvQuery b' x p => b' = b /\ p = x - off
  | EvEvolve _ h' num' bs' => h' = h /\ num' = num /\ bs' = bs
  | _ => True end.

Definition running (b : body) (off h : R) (num : bool) (bs : basis) (s : nus) : Prop :=
  at_place b off s /\ sq_h (q_sq s) = h /\ sq_num (q_sq s) = num /\ o_basis (q_opts s) = bs.

Lemma running_fixed b off h num bs s s' : fixed s' = fixed s ->
  running b off h num bs s -> running b off h num bs s'.
Proof.
  unfold fixed, place. intros F ((B & O) & H & N & K). injection F as F1 F2 F3 F4 F5 F6 F7 F8 F9.
  repeat split; congruence.
Qed.

Lemma evolve_triple b off h num bs dt :
  triple (running b off h num bs) (ev_ok b off h num bs) (fun _ => True) (evolve e dt).
Proof.
  intros s R. split; [|split; [|exact I]].
  - eapply running_fixed; [apply evolve_fixed|exact R].
  - destruct R as (P & H & N & K). destruct (evolve_events b off dt s P) as (_ & evs & -> & F).
    constructor; [repeat split; assumption|].
    eapply Forall_impl; [|exact F]. intros []; cbn; tauto.
Qed.

Lemma positivize_triple b off h num bs :
  triple (running b off h num bs) (ev_ok b off h num bs) (fun _ => True) (positivize e).
Proof. intros s R. split; [exact R|]. split; [repeat constructor|exact I]. Qed.

Lemma evolve_pos_triple b off h num bs t :
  triple (running b off h num bs) (ev_ok b off h num bs) (fun _ => True) (evolve_pos e t).
Proof.
  unfold evolve_pos. apply tr_read. intros s0 _. cbv zeta.
  destruct (_ || _); [|apply tr_undef; exact I].
  destruct (to_int _) as [n|]; [|apply tr_undef; exact I].
  apply tr_seq; [|apply tr_seq; [apply evolve_triple|apply positivize_triple]].
  apply tr_mfor; [exact I|]. intros _. apply tr_seq; [apply evolve_triple|apply positivize_triple].
Qed.

Lemma seq_modify f m s : (modify f ;; m)%m s = m (f s).
Proof. rewrite seq_eq. unfold modify. destruct (m (f s)) as [[r s1] e1]. reflexivity. Qed.
Lemma seq_ret m s : (ret ;; m)%m s = m s.
Proof. rewrite seq_eq. unfold ret. destruct (m s) as [[r s1] e1]. reflexivity. Qed.

Lemma evolve_const_eq len s : evolve_const e len s =
  (evolve e len ;; modify (fun s => put_sq_state (e_const e s len) s))%m
    (put_o_basis BMass (put_sq_num false (put_o_full true s))).
Proof. unfold evolve_const. rewrite !seq_modify. cbn [set_basis basis_eqb]. rewrite seq_modify. reflexivity. Qed.

Lemma evolve_const_triple b off h len :
  forall s num bs, running b off h num bs s ->
    running b off h false BMass (out_obj (evolve_const e len s)) /\
    Forall (ev_ok b off h false BMass) (out_evs (evolve_const e len s)).
Proof.
  intros s num bs (P & H & N & K). rewrite evolve_const_eq. set (s1 := put_o_basis BMass _).
  assert (R1 : running b off h false BMass s1) by (repeat split; try apply P; exact H).
  rewrite seq_eq. destruct (evolve_triple b off h false BMass len s1 R1) as (R2 & F2 & _).
  destruct (evolve e len s1) as [[r s2] e2]. cbn in R2, F2.
  destruct r; split; try exact R2; try exact F2.
  change (Forall (ev_ok b off h false BMass) (e2 ++ [])). rewrite app_nil_r. exact F2.
Qed.

(** the numerics switch and the basis in the steps of an evolution *)
Definition step_num (b : body) (s : nus) : bool := if shortcut b s then false else sq_num (q_sq s).
Definition step_basis (b : body) (s : nus) : basis := if shortcut b s then BMass else o_basis (q_opts s).

Lemma but_ints_running b off h num bs s s' : but_ints s' = but_ints s ->
  running b off h num bs s -> running b off h num bs s'.
Proof.
  intros F R. change (running b off h num bs (but_ints s')). rewrite F. exact R.
Qed.

Lemma evolve_state_events b t off s : q_body s = Some b -> q_track s = Some t -> q_offset s = Some off ->
  Forall (ev_ok b off (turned t s) (step_num b s) (step_basis b s)) (out_evs (evolve_state e s)) /\
  (out_res (evolve_state e s) = Done ->
   running b off (turned t s) (step_num b s) (step_basis b s) (out_obj (evolve_state e s))).
Proof.
  intros B T O. rewrite (evolve_state_eq b t s B T).
  destruct (has_all s); [|split; [constructor|discriminate]].
  rewrite seq_eq. destruct (prep_cases t s) as (r & s1 & -> & U & D & _).
  destruct r; [|split; [constructor|discriminate]|split; [constructor|discriminate]].
  specialize (D eq_refl).
  assert (R1 : running b off (turned t s) (sq_num (q_sq s)) (o_basis (q_opts s)) s1).
  { eapply but_ints_running; [exact D|]. repeat split; cbn; try assumption; reflexivity. }
  unfold tail_, step_num, step_basis. destruct (shortcut b s).
  - destruct (evolve_const_triple b off (turned t s) (tr_fin t - tr_ini t) s1 _ _ R1) as (R2 & F2).
    destruct (evolve_const e _ s1) as [[r s2] e2]. cbn in *. auto.
  - assert (K : forall m, triple (running b off (turned t s) (sq_num (q_sq s)) (o_basis (q_opts s)))
         (ev_ok b off (turned t s) (sq_num (q_sq s)) (o_basis (q_opts s))) (fun _ => True) m ->
       Forall (ev_ok b off (turned t s) (sq_num (q_sq s)) (o_basis (q_opts s)))
         (out_evs (let '(r, s2, e2) := m s1 in (r, s2, [] ++ e2))) /\
       (out_res (let '(r, s2, e2) := m s1 in (r, s2, [] ++ e2)) = Done ->
        running b off (turned t s) (sq_num (q_sq s)) (o_basis (q_opts s))
          (out_obj (let '(r, s2, e2) := m s1 in (r, s2, [] ++ e2))))).
    { intros m Hm. destruct (Hm s1 R1) as (R2 & F2 & _). destruct (m s1) as [[r s2] e2]. cbn in *. auto. }
    destruct (o_pos (q_opts s)); apply K; [apply evolve_pos_triple|apply evolve_triple].
Qed.

(** ** The clock *)

Lemma evolve_clock dt s s' ev : evolve e dt s = (Done, s', ev) -> sq_t (q_sq s') = sq_t (q_sq s) + dt.
Proof.
  intro E. destruct (evolve_done dt s s' ev E) as (B & _).
  change (sq_t (q_sq s')) with (sq_t (q_sq (but_x s'))). rewrite B. reflexivity.
Qed.

Lemma pos_loop dt : forall k i s s' ev,
  mfor k i (fun _ => (evolve e dt ;; positivize e)%m) s = (Done, s', ev) ->
  sq_t (q_sq s') = sq_t (q_sq s) + INR k * dt.
Proof.
  induction k as [|k IH]; intros i s s' ev E; cbn [mfor] in E.
  - injection E as <- <-. cbn. lra.
  - rewrite !seq_eq in E. destruct (evolve e dt s) as [[r s1] e1] eqn:E1.
    destruct r; try discriminate E. unfold positivize at 1 in E. rewrite seq_eq in E. unfold emit, modify in E. cbn [app] in E.
    destruct (mfor k (S i) _ _) as [[r s2] e2] eqn:E2. injection E as -> <- <-.
    rewrite (IH _ _ _ _ E2). cbn [put_sq_state set_q_sq q_sq set_sq_state sq_t].
    rewrite (evolve_clock _ _ _ _ E1), S_INR. lra.
Qed.

Lemma evolve_pos_clock t s s' ev : evolve_pos e t s = (Done, s', ev) ->
  exists n, o_scale (q_opts s) <> 0 /\ to_int ((tr_fin t - tr_ini t) / o_scale (q_opts s)) = Some n /\
    sq_t (q_sq s') = sq_t (q_sq s) + INR (Z.to_nat n) * o_scale (q_opts s)
                     + (tr_fin t - o_scale (q_opts s) * IZR n).
Proof.
  unfold evolve_pos, read. cbv zeta. set (sc := o_scale (q_opts s)).
  destruct (rlt 0 sc || rlt sc 0) eqn:Z; [|discriminate].
  destruct (to_int ((tr_fin t - tr_ini t) / sc)) as [n|] eqn:N; [|discriminate]. intro E.
  exists n. split; [|split; [reflexivity|]].
  - intro X. rewrite X in Z. assert (Y : rlt 0 0 = false) by (apply rlt_false; lra). rewrite Y in Z. discriminate Z.
  - rewrite seq_eq in E. destruct (mfor _ _ _ s) as [[r s1] e1] eqn:E1. destruct r; try discriminate E.
    rewrite seq_eq in E. destruct (evolve e _ s1) as [[r s2] e2] eqn:E2. destruct r; try discriminate E.
    unfold positivize in E. rewrite seq_eq in E. unfold emit, modify in E. cbn [app] in E.
    injection E as <- <-. cbn [put_sq_state set_q_sq q_sq set_sq_state sq_t].
    rewrite (evolve_clock _ _ _ _ E2), (pos_loop _ _ _ _ _ _ E1). reflexivity.
Qed.

Lemma evolve_const_done len s s' ev off : q_offset s = Some off ->
  evolve_const e len s = (Done, s', ev) ->
  sq_t (q_sq s') = sq_t (q_sq s) + len /\ q_x s' = sq_t (q_sq s) + len - off.
Proof.
  intros O E. rewrite evolve_const_eq in E. set (s1 := put_o_basis BMass _) in E.
  rewrite seq_eq in E. destruct (evolve e len s1) as [[r s2] e2] eqn:E2. destruct r; try discriminate E.
  unfold modify in E. cbn [app] in E. injection E as <- <-.
  cbn [put_sq_state set_q_sq q_sq set_sq_state sq_t q_x]. split.
  - exact (evolve_clock _ _ _ _ E2).
  - destruct (evolve_done _ _ _ _ E2) as (_ & _ & X). rewrite (X off); [reflexivity|exact O|].
    cbn. discriminate.
Qed.

(** clock and position after a successful evolution *)
Lemma evolve_state_done b t off s s' ev :
  q_body s = Some b -> q_track s = Some t -> q_offset s = Some off ->
  evolve_state e s = (Done, s', ev) -> shortcut b s = true \/ o_pos (q_opts s) = false ->
  sq_t (q_sq s') = sq_t (q_sq s) + (tr_fin t - tr_ini t) /\
  (shortcut b s = true \/ (forall s1, sq_num (q_sq s1) = true -> sq_t (q_sq s1) = sq_t (q_sq s) ->
     exists ts, fst (fst (fst (e_solve e s1 (tr_fin t - tr_ini t)))) = ts ++ [sq_t (q_sq s1) + (tr_fin t - tr_ini t)]) ->
   q_x s' = sq_t (q_sq s) + (tr_fin t - tr_ini t) - off).
Proof.
  intros B T O E SP. rewrite (evolve_state_eq b t s B T) in E.
  destruct (has_all s); [|discriminate E].
  rewrite seq_eq in E. destruct (prep_cases t s) as (r & s1 & P & U & D & _). rewrite P in E.
  destruct r; try discriminate E. specialize (D eq_refl).
  assert (T1 : sq_t (q_sq s1) = sq_t (q_sq s)).
  { change (sq_t (q_sq s1)) with (sq_t (q_sq (but_ints s1))). rewrite D. reflexivity. }
  assert (O1 : q_offset s1 = Some off).
  { change (q_offset s1) with (q_offset (but_ints s1)). rewrite D. exact O. }
  unfold tail_ in E. destruct (shortcut b s).
  - destruct (evolve_const e _ s1) as [[r s2] e2] eqn:E2. injection E as -> <- <-.
    destruct (evolve_const_done _ _ _ _ off O1 E2) as (X & Y). rewrite <- T1. auto.
  - destruct SP as [SP|SP]; [discriminate SP|]. rewrite SP in E.
    destruct (evolve e _ s1) as [[r s2] e2] eqn:E2. injection E as -> <- <-.
    rewrite <- T1. split; [exact (evolve_clock _ _ _ _ E2)|].
    intros [X|X]; [discriminate X|]. destruct (evolve_done _ _ _ _ E2) as (_ & _ & Y).
    apply Y; [exact O1|]. intro N. apply X; [exact N|reflexivity].
Qed.

Lemma evolve_state_pos b t s s' ev :
  q_body s = Some b -> q_track s = Some t ->
  evolve_state e s = (Done, s', ev) -> shortcut b s = false -> o_pos (q_opts s) = true ->
  exists n, o_scale (q_opts s) <> 0 /\ to_int ((tr_fin t - tr_ini t) / o_scale (q_opts s)) = Some n /\
    sq_t (q_sq s') = sq_t (q_sq s) + INR (Z.to_nat n) * o_scale (q_opts s)
                     + (tr_fin t - o_scale (q_opts s) * IZR n).
Proof.
  intros B T E SH P. rewrite (evolve_state_eq b t s B T) in E.
  destruct (has_all s); [|discriminate E].
  rewrite seq_eq in E. destruct (prep_cases t s) as (r & s1 & PR & U & D & _). rewrite PR in E.
  destruct r; try discriminate E. specialize (D eq_refl).
  assert (T1 : sq_t (q_sq s1) = sq_t (q_sq s)).
  { change (sq_t (q_sq s1)) with (sq_t (q_sq (but_ints s1))). rewrite D. reflexivity. }
  assert (S1 : o_scale (q_opts s1) = o_scale (q_opts s)).
  { change (o_scale (q_opts s1)) with (o_scale (q_opts (but_ints s1))). rewrite D. reflexivity. }
  unfold tail_ in E. rewrite SH, P in E.
  destruct (evolve_pos e t s1) as [[r s2] e2] eqn:E2. injection E as -> <- <-.
  rewrite <- T1, <- S1. exact (evolve_pos_clock _ _ _ _ E2).
Qed.

End Machine.
