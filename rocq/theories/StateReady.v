(** When evolutions succeed, when buffers are large enough, and objects ready
    to be evolved. *)
From Coq Require Import Reals List Arith Bool ZArith Lia Lra.
From Verif Require Import IntModel XsModel XsProofs StateModel StateProofs StateHistory StateLaws.
Import ListNotations.
Open Scope R_scope.

(** ** Buffers and tables *)

(** the buffers that an evolution writes have room for all nodes *)
Definition room (s : nus) : Prop :=
  if o_osc (q_opts s) then
    (q_ne s <= i_nc (q_ints s))%nat /\
    (o_tau (q_opts s) = true -> (q_ne s <= i_tau (q_ints s))%nat) /\
    (gr_on s = true -> (q_ne s <= i_gr (q_ints s))%nat)
  else exists r n, i_cache (q_ints s) = Some (r, n) /\ (q_nrhos s <= r)%nat /\ (q_ne s <= n)%nat.

Lemma use_interactions_eq s t : i_tabs (q_ints s) = Some t -> tb_fill t <> TEmpty -> room s ->
  use_interactions s = (Done, s, [EvTables t]).
Proof.
  intros T F R. unfold use_interactions, read. rewrite T. unfold room in R.
  destruct (tb_fill t); [congruence| |].
  all: destruct (o_osc (q_opts s));
    [destruct R as (R1 & R2 & R3); apply Nat.leb_le in R1; rewrite R1;
     destruct (o_tau (q_opts s)); [pose proof (proj2 (Nat.leb_le _ _) (R2 eq_refl)) as X2; rewrite X2|];
     (destruct (gr_on s); [pose proof (proj2 (Nat.leb_le _ _) (R3 eq_refl)) as X3; rewrite X3|]);
     reflexivity
    |destruct R as (r & n & C & R1 & R2); rewrite C; apply Nat.leb_le in R1, R2; rewrite R1, R2; reflexivity].
Qed.

Lemma use_interactions_out s t : i_tabs (q_ints s) = Some t ->
  tb_fill t = TEmpty \/ ~ room s -> use_interactions s = (Undef OutOfBounds, s, []).
Proof.
  intros T F. unfold use_interactions, read. rewrite T.
  destruct (tb_fill t) eqn:TF; [reflexivity| |].
  all: destruct F as [F|F]; [discriminate F|]; unfold room in F;
    destruct (o_osc (q_opts s)).
  1,3: destruct (Nat.leb_spec (q_ne s) (i_nc (q_ints s))); cbn [andb]; [|reflexivity];
    destruct (o_tau (q_opts s)); [destruct (Nat.leb_spec (q_ne s) (i_tau (q_ints s)));
       cbn [negb orb andb]; [|reflexivity]|cbn [negb orb andb]];
    (destruct (gr_on s); [destruct (Nat.leb_spec (q_ne s) (i_gr (q_ints s))); [|reflexivity]|]);
    exfalso; apply F; repeat split; auto; discriminate.
  all: destruct (i_cache (q_ints s)) as [[r n]|]; [|reflexivity];
    destruct (Nat.leb_spec (q_nrhos s) r); [|reflexivity];
    destruct (Nat.leb_spec (q_ne s) n); [|reflexivity]; exfalso; apply F; eauto.
Qed.

(** a look at the medium goes well *)
Definition looks_ok (s : nus) : Prop :=
  q_track s <> None /\ q_offset s <> None /\ q_body s <> None /\
  (o_src (q_opts s) = true -> i_flux (q_ints s) = q_ne s) /\
  (o_int (q_opts s) = true -> exists t, i_tabs (q_ints s) = Some t /\ tb_fill t <> TEmpty /\ room s).

Lemma pre_derive_ok x s : looks_ok s -> out_res (pre_derive x s) = Done.
Proof.
  intros (T & O & B & S & N). unfold pre_derive, read.
  destruct (q_track s) as [t|]; [|congruence]. destruct (q_offset s) as [off|]; [|congruence].
  rewrite seq_modify. destruct (q_body s) as [b|]; [|congruence].
  rewrite seq_eq. unfold emit. rewrite seq_eq. set (s1 := set_q_x _ s).
  assert (K : out_res (when (o_int (q_opts s)) use_interactions s1) = Done).
  { unfold when. destruct (o_int (q_opts s)); [|reflexivity].
    destruct (N eq_refl) as (tb & T1 & T2 & T3).
    rewrite (use_interactions_eq s1 tb); [reflexivity|exact T1|exact T2|exact T3]. }
  unfold when at 1. destruct (o_src (q_opts s)).
  - rewrite S by reflexivity. rewrite Nat.eqb_refl. unfold ret at 1. unfold out_res in *.
    destruct (when _ _ s1) as [[r s2] e2]. exact K.
  - unfold ret at 1. unfold out_res in *. destruct (when _ _ s1) as [[r s2] e2]. exact K.
Qed.

Lemma looks_ok_x s s' : but_x s' = but_x s -> looks_ok s -> looks_ok s'.
Proof. intros B L. change (looks_ok (but_x s')). rewrite B. exact L. Qed.

Lemma meach_ok ts : forall s, looks_ok s -> out_res (meach ts pre_derive s) = Done.
Proof.
  induction ts as [|x ts IH]; intros s L; cbn [meach]; [reflexivity|].
  rewrite seq_eq. pose proof (pre_derive_ok x s L) as K. pose proof (pre_derive_but_x x s) as B.
  unfold out_res, keeps in *. destruct (pre_derive x s) as [[r s1] e1]. cbn in K, B. subst r.
  specialize (IH s1 (looks_ok_x _ _ B L)). destruct (meach ts pre_derive s1) as [[r s2] e2]. exact IH.
Qed.

Section Machine.
Variable e : env.

Lemma evolve_ok dt s : looks_ok s ->
  (sq_num (q_sq s) = true -> snd (fst (fst (e_solve e s dt))) = true) ->
  out_res (evolve e dt s) = Done.
Proof.
  intros L K. unfold evolve, read. rewrite seq_eq. unfold emit.
  destruct (sq_num (q_sq s)).
  - destruct (e_solve e s dt) as [[[ts ok] t'] st]. specialize (K eq_refl). cbn in K. subst ok.
    rewrite seq_eq. pose proof (meach_ok ts s L) as M. unfold out_res in *.
    destruct (meach ts pre_derive s) as [[r s1] e1]. cbn in M. subst r. reflexivity.
  - rewrite seq_modify. unfold read. set (s1 := put_sq_t _ s).
    pose proof (pre_derive_ok (sq_t (q_sq s1)) s1 L) as M. unfold out_res in *.
    destruct (pre_derive (sq_t (q_sq s1)) s1) as [[r s2] e2]. exact M.
Qed.

(** ** New objects with several energies *)

Lemma make_multi_ok E numneu t iint x :
  (3 <= numneu)%nat -> (numneu <= e_maxdim e)%nat -> E <> [] ->
  exists s, make_multi e E numneu t iint x = (Done, s, []) /\
    rest s = (t, numneu, length E, if nt_eqb t Both then 2%nat else 1%nat, E, Sqd 0 0 (e_h e) true [],
              Opts iint true false false false false false false BInter (300 * e_km e),
              Ints x None false 0 0 0 None 0, None, None, (0, None, false, false, true, false)).
Proof.
  intros H3 Hm HE. unfold make_multi. cbv zeta. set (b := blank _ _ _ _ _ _ _ _).
  destruct (Nat.ltb_spec (e_maxdim e) numneu); [lia|].
  destruct (Nat.ltb_spec numneu 3); [lia|].
  destruct (Nat.eqb_spec (length E) 0) as [Z|_]; [destruct E; [congruence|discriminate Z]|].
  rewrite !seq_modify. set (b1 := put_f_energy true _). rewrite seq_eq.
  destruct (set_defaults_eq e b1) as (p & E1 & _); [exact H3|exact Hm|]. rewrite E1.
  rewrite seq_eq. set (b2 := put_f_state false _).
  destruct (set_projectors_eq e b2) as (b3 & E3 & F3 & _); [exact Hm|]. rewrite E3.
  unfold ini_h0, modify. pose proof (rest_proj _ _ F3) as R3.
  assert (FE : f_energy (q_flags b3) = true).
  { unfold rest in R3. injection R3 as _ _ _ _ _ _ _ _ _ _ _ _ _ _ X _. exact X. }
  rewrite FE. eexists. split; [reflexivity|].
  change (rest (set_q_h0 (Hsnap (p_dm (q_pars b3)) (o_osc (q_opts b3)) (q_E b3)) b3)) with (rest b3).
  rewrite R3. reflexivity.
Qed.

(** ** Ready to evolve *)

Definition ready (E : list R) (numneu : nat) (iint : bool) (x : option xslib) (b : body) (t : track)
    (s : nus) : Prop :=
  rest s = (Both, numneu, length E, 2%nat, E,
            Sqd (tr_ini t) (tr_ini t) (e_ini_h e (e_h e)) (e_ini_num e true) (sq_state (q_sq s)),
            Opts iint true false false false false false false BInter (300 * e_km e),
            Ints x None false 0 0 0 None 0, Some b, Some t,
            (tr_ini t, Some 0, false, true, true, true)) /\ f_state (q_flags s) = true.

Theorem ready_exists_lib E numneu iint x b t v :
  (3 <= numneu)%nat -> (numneu <= e_maxdim e)%nat -> E <> [] ->
  exists s0 h s, made e true s0 /\ history e s0 h s /\ ready E numneu iint x b t s /\
    map (fun en => fst (fst (fst en))) h
    = [CInit3 (length E) 2 numneu v BFlavor; CTrack (Some t); CBody (Some b)] /\
    Forall (fun en => snd (fst (fst en)) = Done) h /\ i_ncs (q_ints s0) = x.
Proof.
  intros H3 Hm HE. destruct (make_multi_ok E numneu Both iint x H3 Hm HE) as (s0 & M0 & R0).
  cbn [nt_eqb] in R0. unfold rest in R0. injection R0 as A1 A2 A3 A4 A5 A6 A7 A8 A9 A10 A11 A12 A13 A14 A15 A16.
  pose proof (made_multi e E numneu Both iint x s0 [] M0) as Mk.
  pose proof (nw_wf e _ _ (made_spec e _ _ Mk)) as W0.
  set (s1 := put_f_body true (set_q_body (Some b) s0)).
  set (s2 := put_f_track true (set_q_track (Some t) (set_q_x (tr_ini t)
               (set_q_offset (Some (sq_t (q_sq s1) - tr_ini t)) s1)))).
  assert (E1 : exec e (CBody (Some b)) s0 = (Done, s1, [])) by reflexivity.
  assert (E2 : exec e (CTrack (Some t)) s1 = (Done, s2, [])) by reflexivity.
  pose proof (wf_exec e _ _ _ _ _ W0 E1) as W1. pose proof (wf_exec e _ _ _ _ _ W1 E2) as W2.
  set (c := CInit3 (length E) 2 numneu v BFlavor).
  destruct (fill_state_eq e v BFlavor s2 t (wf_max e _ W2) eq_refl) as (s3 & E3 & S3 & _).
  { cbn. exact A15. }
  assert (EC : exec e c s2 = (Done, s3, [])).
  { unfold c. cbn [exec]. unfold init_state3, read. rewrite checks_eq.
    cbn [existsb s2 s1 q_ne q_nrhos q_numneu q_nt q_flags put_f_body put_f_track set_q_flags set_q_body
         set_q_track set_q_x set_q_offset set_f_body set_f_track f_body f_track f_energy basis_eqb].
    rewrite A1, A2, A3, A4, A15, !Nat.eqb_refl. cbn [negb orb nt_eqb].
    destruct (Nat.eqb_spec (length E * 2 * numneu) 0) as [Z|_]; [|exact E3].
    destruct E; [congruence|]. cbn in Z. lia. }
  exists s0, [(c, Done, [], s3); (CTrack (Some t), Done, [], s2); (CBody (Some b), Done, [], s1)], s3.
  split; [exact Mk|]. split; [|split; [|split; [reflexivity|split; [repeat constructor|rewrite A8; reflexivity]]]].
  - apply h_call with s2; [|exact EC|discriminate]. apply h_call with s1; [|exact E2|discriminate].
    apply h_call with s0; [|exact E1|discriminate]. apply h_nil.
  - split; [|rewrite (ss_flags _ _ _ _ S3); reflexivity].
    unfold rest. rewrite (ss_nt _ _ _ _ S3), (ss_numneu _ _ _ _ S3), (ss_ne _ _ _ _ S3),
      (ss_nrhos _ _ _ _ S3), (ss_E _ _ _ _ S3), (ss_opts _ _ _ _ S3), (ss_ints _ _ _ _ S3),
      (ss_body _ _ _ _ S3), (ss_track _ _ _ _ S3), (ss_x _ _ _ _ S3), (ss_offset _ _ _ _ S3),
      (ss_flags _ _ _ _ S3).
    assert (SQ : q_sq s3 = Sqd (tr_ini t) (tr_ini t) (e_ini_h e (e_h e)) (e_ini_num e true) (sq_state (q_sq s3))).
    { pose proof (ss_t _ _ _ _ S3) as T1. pose proof (ss_t0 _ _ _ _ S3) as T2.
      pose proof (ss_h _ _ _ _ S3) as T3. pose proof (ss_num _ _ _ _ S3) as T4.
      change (q_sq s2) with (q_sq s0) in T3, T4. rewrite A6 in T3, T4. cbn in T3, T4.
      destruct (q_sq s3) as [a1 a2 a3 a4 a5]. cbn in *. subst. reflexivity. }
    rewrite <- SQ. unfold s2, s1.
    cbn [q_nt q_numneu q_ne q_nrhos q_E q_opts q_ints q_body q_track q_flags put_f_body put_f_track set_q_flags set_q_body
         set_q_track set_q_x set_q_offset set_f_body set_f_track set_f_state f_nus f_body f_track f_energy].
    rewrite A1, A2, A3, A4, A5, A7, A8, A13, A15. reflexivity.
Qed.

Theorem ready_exists E numneu iint x b t v :
  (3 <= numneu)%nat -> (numneu <= e_maxdim e)%nat -> E <> [] ->
  exists s0 h s, made e true s0 /\ history e s0 h s /\ ready E numneu iint x b t s /\
    map (fun en => fst (fst (fst en))) h
    = [CInit3 (length E) 2 numneu v BFlavor; CTrack (Some t); CBody (Some b)] /\
    Forall (fun en => snd (fst (fst en)) = Done) h.
Proof.
  intros A B C. destruct (ready_exists_lib E numneu iint x b t v A B C) as (s0 & h & s & D1 & D2 & D3 & D4 & D5 & _).
  exists s0, h, s. auto.
Qed.

(** ** Interactions initialised with complete libraries *)

(** the library offers the targets, valid values and electrons *)
Definition good_lib (x : xslib) : bool :=
  ((x_proton x && x_neutron x) || x_iso x) && x_valid x && x_electron x.

Definition targets_of (x : xslib) : nat :=
  if x_proton x && x_neutron x then 2 else if x_iso x then 1 else 0.

Lemma build_ok s x : match i_ncs (q_ints s) with Some y => Some y | None => e_default e end = Some x ->
  good_lib x = true ->
  build_tables e s = (Done, put_i_tabs (Some (Tabs TFull (targets_of x) (x_name x) (gr_on s)))
    (put_i_ncs (Some x) s), []).
Proof.
  intros X G. apply andb_prop in G. destruct G as [G Gx]. apply andb_prop in G. destruct G as [Gt Gv].
  unfold build_tables. rewrite seq_modify. rewrite seq_eq. unfold read at 1.
  set (s1 := put_i_tabs _ s).
  assert (NX : Nat.eqb (targets_of x) 0 = false).
  { unfold targets_of. destruct (x_proton x && x_neutron x); [reflexivity|]. cbn in Gt. rewrite Gt. reflexivity. }
  assert (K : forall s2, i_ncs (q_ints s2) = Some x -> gr_on s2 = gr_on s ->
    read (fun s => match i_ncs (q_ints s) with
    | None => undef NullPtr
    | Some x =>
      let n := if x_proton x && x_neutron x then 2%nat
               else if x_iso x then 1%nat else 0%nat in
      if Nat.eqb n 0 then throw
      else
        (modify (put_i_tabs (Some (Tabs TPart n (x_name x) false))) ;;
        (if negb (x_valid x) then throw
         else if gr_on s && negb (x_electron x) then throw
         else modify (put_i_tabs (Some (Tabs TFull n (x_name x) (gr_on s))))))%m
    end) s2 = (Done, put_i_tabs (Some (Tabs TFull (targets_of x) (x_name x) (gr_on s))) 
                 (put_i_tabs (Some (Tabs TPart (targets_of x) (x_name x) false)) s2), [])).
  { intros s2 N2 G2. unfold read. rewrite N2. cbv zeta. fold (targets_of x). rewrite NX, seq_modify, Gv, Gx, G2.
    cbn [negb]. rewrite andb_false_r. reflexivity. }
  cbv zeta in K.
  change (i_ncs (q_ints s1)) with (i_ncs (q_ints s)).
  destruct (i_ncs (q_ints s)) as [y|] eqn:Y.
  - injection X as ->. unfold ret at 1. rewrite (K s1) by (exact Y || reflexivity).
    unfold s1. dest_nus s. cbn in Y. subst. reflexivity.
  - rewrite X. unfold modify at 1. rewrite K by reflexivity. unfold s1. dest_nus s. reflexivity.
Qed.

(** the buffers were resized for the switches that are on *)
Definition sized (s : nus) : Prop := o_int (q_opts s) = true ->
  (q_ne s <= i_nc (q_ints s))%nat /\ (o_tau (q_opts s) = true -> (q_ne s <= i_tau (q_ints s))%nat) /\
  (o_gr (q_opts s) = true -> (q_ne s <= i_gr (q_ints s))%nat).

Definition lib_ok (o : option xslib) : Prop := forall x, o = Some x -> good_lib x = true.

Record tables_fit (s : nus) : Prop := {
  tf_lib : lib_ok (i_ncs (q_ints s));
  tf_full : forall t, i_tabs (q_ints s) = Some t -> tb_fill t = TFull /\ (gr_on s = true -> tb_gr t = true);
  tf_sized : i_done (q_ints s) = true -> i_tabs (q_ints s) <> None /\ sized s }.

Lemma r4_ge n : (n <= r4 n)%nat.
Proof.
  unfold r4. pose proof (Nat.div_mod (n + 3) 4 ltac:(lia)) as D.
  pose proof (Nat.mod_upper_bound (n + 3) 4 ltac:(lia)). lia.
Qed.

Lemma init_fit s : tables_fit s -> lib_ok (e_default e) -> e_default e <> None ->
  (init_interactions e s = (Threw, s, []) /\ e_tau e (q_E s) = false) \/
  exists s1, init_interactions e s = (Done, s1, []) /\ tables_fit s1 /\ i_done (q_ints s1) = true /\
    but_ints s1 = but_ints s.
Proof.
  intros F L D. pose proof (init_but_ints e s) as B. unfold keeps in B.
  remember (init_interactions e s) as IX eqn:EX. unfold init_interactions in EX. unfold read at 1 in EX.
  destruct (i_done (q_ints s)) eqn:DN.
  { right. exists s. auto. }
  destruct (e_tau e (q_E s)); [|left; split; [exact EX|reflexivity]]. right. cbn [negb] in EX.
  assert (K : exists s1, (match i_tabs (q_ints s) with None => build_tables e | Some _ => ret end) s = (Done, s1, []) /\
     q_opts s1 = q_opts s /\ q_ne s1 = q_ne s /\ q_nt s1 = q_nt s /\ lib_ok (i_ncs (q_ints s1)) /\
     exists t, i_tabs (q_ints s1) = Some t /\ tb_fill t = TFull /\ (gr_on s = true -> tb_gr t = true)).
  { destruct (i_tabs (q_ints s)) as [t|] eqn:T.
    - exists s. repeat split; [apply F|]. exists t. rewrite T. split; [reflexivity|]. apply F. exact T.
    - destruct (match i_ncs (q_ints s) with Some y => Some y | None => e_default e end) as [x|] eqn:X.
      + assert (G : good_lib x = true).
        { destruct (i_ncs (q_ints s)) as [y|] eqn:Y; [injection X as ->; exact (tf_lib s F x Y)|exact (L x X)]. }
        rewrite (build_ok s x X G). eexists. split; [reflexivity|]. repeat split.
        * intros y Y. cbn in Y. injection Y as <-. exact G.
        * eexists. split; [reflexivity|]. split; [reflexivity|]. cbn. tauto.
      + exfalso. destruct (i_ncs (q_ints s)); [discriminate X|exact (D X)]. }
  destruct K as (s1 & E1 & O1 & N1 & T1 & L1 & t & TB & TF & TG).
  rewrite seq_eq in EX. rewrite E1 in EX. rewrite seq_eq in EX. unfold read in EX.
  pose proof (r4_ge (q_ne s1)) as R4.
  set (m := when (o_int (q_opts s1)) _) in *.
  assert (K : exists s2, m s1 = (Done, s2, []) /\ q_opts s2 = q_opts s1 /\ q_ne s2 = q_ne s1 /\
     q_nt s2 = q_nt s1 /\ i_ncs (q_ints s2) = i_ncs (q_ints s1) /\ i_tabs (q_ints s2) = i_tabs (q_ints s1) /\ sized s2).
  { unfold m, when, sized. destruct (o_int (q_opts s1)) eqn:OI.
    - rewrite seq_modify, seq_eq.
      destruct (o_tau (q_opts s1)) eqn:OT, (o_gr (q_opts s1)) eqn:OG; unfold modify, ret; cbn [app].
      all: eexists; (split; [reflexivity|]); cbn; rewrite ?OI, ?OT, ?OG; repeat split; auto; discriminate.
    - exists s1. repeat split; rewrite OI in *; discriminate. }
  destruct K as (s2 & E2 & O2 & N2 & T2 & L2 & TB2 & Z2). rewrite E2 in EX. unfold modify in EX. cbn [app] in EX. subst IX.
  exists (put_i_done true s2). split; [reflexivity|]. split; [|split; [reflexivity|exact B]].
  assert (GR : gr_on (put_i_done true s2) = gr_on s).
  { unfold gr_on. cbn. rewrite O2, O1, T2, T1. reflexivity. }
  constructor.
  - cbn. rewrite L2. exact L1.
  - intros t0 H0. rewrite GR. cbn in H0. rewrite TB2, TB in H0. injection H0 as <-. auto.
  - intros _. cbn. rewrite TB2, TB. split; [discriminate|exact Z2].
Qed.

(** what [tables_fit] looks at *)
Definition tview (s : nus) :=
  (q_nt s, q_ne s, o_int (q_opts s), o_tau (q_opts s), o_gr (q_opts s),
   (i_ncs (q_ints s), i_tabs (q_ints s), i_done (q_ints s), i_nc (q_ints s), i_tau (q_ints s), i_gr (q_ints s))).

Lemma fit_view s s' : tview s' = tview s -> tables_fit s -> tables_fit s'.
Proof.
  unfold tview. intro V. injection V as V1 V2 V3 V4 V5 V6 V7 V8 V9 V10 V11. intros [F1 F2 F3].
  constructor.
  - rewrite V6. exact F1.
  - intros t T. rewrite V7 in T. unfold gr_on in *. rewrite V5, V1. apply F2, T.
  - rewrite V8. intro D. rewrite V7. unfold sized in *. rewrite V2, V3, V4, V5, V9, V10, V11. auto.
Qed.

Lemma view_x x : stable (keeps tview) (pre_derive x).
Proof.
  intro s. pose proof (pre_derive_but_x x s) as B. unfold keeps in *.
  change (tview (out_obj (pre_derive x s))) with (tview (but_x (out_obj (pre_derive x s)))).
  rewrite B. reflexivity.
Qed.
Lemma view_evolve dt : stable (keeps tview) (evolve e dt).
Proof. unfold evolve. stab_with (keeps_r _ tview) (keeps_t _ tview); apply view_x. Qed.

Lemma view_tail b t s0 : stable (keeps tview) (tail_ e b t s0).
Proof.
  unfold tail_, evolve_const, evolve_pos, positivize, set_basis.
  stab_with (keeps_r _ tview) (keeps_t _ tview); apply view_evolve.
Qed.

(** a look at the medium never writes out of bounds *)
Definition safe (r : res) : Prop := r <> Undef OutOfBounds.

Definition looks_safe (s : nus) : Prop :=
  o_int (q_opts s) = true ->
  i_tabs (q_ints s) = None \/ exists t, i_tabs (q_ints s) = Some t /\ tb_fill t <> TEmpty /\ room s.

Definition tables_of (s : nus) (ev : event) : Prop :=
  match ev with EvTables t => i_tabs (q_ints s) = Some t | _ => True end.

Lemma pre_derive_safe x s : looks_safe s ->
  safe (out_res (pre_derive x s)) /\ Forall (tables_of s) (out_evs (pre_derive x s)).
Proof.
  intro L. unfold pre_derive, read.
  destruct (q_track s) as [t|]; [|split; [discriminate|constructor]].
  destruct (q_offset s) as [off|]; [|split; [discriminate|constructor]].
  rewrite seq_modify. destruct (q_body s) as [b|]; [|split; [discriminate|constructor]].
  rewrite seq_eq. unfold emit. rewrite seq_eq. set (s1 := set_q_x _ s).
  assert (K : safe (out_res (when (o_int (q_opts s)) use_interactions s1)) /\
    Forall (tables_of s) (out_evs (when (o_int (q_opts s)) use_interactions s1))).
  { unfold when. destruct (o_int (q_opts s)) eqn:OI; [|split; [discriminate|constructor]].
    destruct (L OI) as [N|(tb & T1 & T2 & T3)].
    - unfold use_interactions, read. change (i_tabs (q_ints s1)) with (i_tabs (q_ints s)). rewrite N.
      split; [discriminate|constructor].
    - rewrite (use_interactions_eq s1 tb); [|exact T1|exact T2|exact T3].
      split; [discriminate|]. constructor; [exact T1|constructor]. }
  unfold when at 1 3. destruct (o_src (q_opts s)).
  - destruct (Nat.eqb _ _); [|split; [discriminate|repeat constructor]]. unfold ret.
    unfold out_res, out_evs in *. destruct (when _ _ s1) as [[r s2] e2]. cbn in *.
    destruct K. split; [assumption|]. constructor; [exact I|assumption].
  - unfold ret. unfold out_res, out_evs in *. destruct (when _ _ s1) as [[r s2] e2]. cbn in *.
    destruct K. split; [assumption|]. constructor; [exact I|assumption].
Qed.

(** what [looks_safe] and [tables_of] look at *)
Definition lview (s : nus) := (q_nt s, q_ne s, q_nrhos s,
  (o_int (q_opts s), o_osc (q_opts s), o_tau (q_opts s), o_gr (q_opts s)), q_ints s).

Lemma safe_view s s' : lview s' = lview s -> looks_safe s -> looks_safe s'.
Proof.
  unfold lview, looks_safe, room, gr_on. intro V. injection V as V1 V2 V3 V4 V5 V6 V7 V8.
  rewrite V1, V2, V3, V4, V5, V6, V7, V8. tauto.
Qed.

Definition safe_at (s0 s : nus) : Prop := lview s = lview s0 /\ looks_safe s.

Lemma lview_x x : stable (keeps lview) (pre_derive x).
Proof.
  intro s. pose proof (pre_derive_but_x x s) as B. unfold keeps in *.
  change (lview (out_obj (pre_derive x s))) with (lview (but_x (out_obj (pre_derive x s)))).
  rewrite B. reflexivity.
Qed.

Lemma tables_view s s' ev : lview s' = lview s -> tables_of s' ev -> tables_of s ev.
Proof. unfold lview. intro V. injection V as _ _ _ _ _ _ _ V8. destruct ev; cbn; try tauto. rewrite V8. tauto. Qed.

Lemma pre_derive_striple s0 x : triple (safe_at s0) (tables_of s0) safe (pre_derive x).
Proof.
  intros s (V & L). pose proof (lview_x x s) as K. unfold keeps in K.
  destruct (pre_derive_safe x s L) as (S1 & F1). split; [|split; [|exact S1]].
  - split; [congruence|]. eapply safe_view; [exact K|exact L].
  - eapply Forall_impl; [|exact F1]. intros ev H. eapply tables_view; [exact V|exact H].
Qed.

Lemma safe_modify s0 f : (forall s, lview (f s) = lview s) -> triple (safe_at s0) (tables_of s0) safe (modify f).
Proof.
  intro H. apply tr_modify; [discriminate|]. intros s (V & L). split; [rewrite H; exact V|].
  eapply safe_view; [apply H|exact L].
Qed.

Lemma evolve_striple s0 dt : triple (safe_at s0) (tables_of s0) safe (evolve e dt).
Proof.
  unfold evolve. apply tr_read. intros s1 _.
  apply tr_seq; [apply tr_emit; [discriminate|exact I]|].
  destruct (sq_num (q_sq s1)).
  - destruct (e_solve e s1 dt) as [[[ts ok] t'] st].
    apply tr_seq; [apply tr_meach; [discriminate|intro; apply pre_derive_striple]|].
    destruct ok; [apply safe_modify; reflexivity|].
    apply tr_seq; [apply safe_modify; reflexivity|apply tr_throw; discriminate].
  - apply tr_seq; [apply safe_modify; reflexivity|]. apply tr_read. intros s2 _. apply pre_derive_striple.
Qed.

Lemma tail_striple s0 b t s1 : triple (safe_at s0) (tables_of s0) safe (tail_ e b t s1).
Proof.
  unfold tail_. destruct (shortcut b s1); [|destruct (o_pos (q_opts s1))].
  - unfold evolve_const, set_basis. cbn [basis_eqb].
    repeat (apply tr_seq; [first [apply evolve_striple|apply safe_modify; reflexivity]|]).
    apply safe_modify; reflexivity.
  - unfold evolve_pos. apply tr_read. intros s2 _. cbv zeta.
    assert (P : triple (safe_at s0) (tables_of s0) safe (positivize e)).
    { apply tr_seq; [apply tr_emit; [discriminate|exact I]|apply safe_modify; reflexivity]. }
    destruct (_ || _); [|apply tr_undef; discriminate].
    destruct (to_int _); [|apply tr_undef; discriminate].
    apply tr_seq; [|apply tr_seq; [apply evolve_striple|exact P]].
    apply tr_mfor; [discriminate|]. intros _. apply tr_seq; [apply evolve_striple|exact P].
  - apply evolve_striple.
Qed.

Definition tabs_of (s : nus) : option tabs := i_tabs (q_ints s).

(** the preparation of an object whose tables fit *)
Lemma prep_fit s t : tables_fit s -> lib_ok (e_default e) -> e_default e <> None ->
  (prep e t s = (Threw, s, []) /\ e_tau e (q_E s) = false) \/
  exists s1, prep e t s = (Done, s1, []) /\ tables_fit s1 /\ looks_safe s1 /\ gr_on s1 = gr_on s /\
    (o_int (q_opts s) = true -> tabs_of s1 <> None).
Proof.
  intros F L D.
  unfold prep, read. rewrite seq_eq.
    assert (K : (when (o_int (q_opts s) && negb (i_done (q_ints s))) (init_interactions e) s = (Threw, s, []) /\ e_tau e (q_E s) = false) \/
      exists s1, when (o_int (q_opts s) && negb (i_done (q_ints s))) (init_interactions e) s = (Done, s1, []) /\
       tables_fit s1 /\ but_ints s1 = but_ints s /\ (o_int (q_opts s) = true -> i_done (q_ints s1) = true)).
    { unfold when. destruct (o_int (q_opts s)) eqn:OI; cbn [andb].
      - destruct (i_done (q_ints s)) eqn:DN; cbn [negb].
        + right. exists s. auto.
        + destruct (init_fit s F L D) as [X|(s1 & X & F1 & D1 & B1)]; [left; exact X|right; eauto 6].
      - right. exists s. refine (conj eq_refl (conj F (conj eq_refl _))). discriminate. }
    destruct K as [(-> & ET)|(s1 & -> & F1 & B1 & D1)]; [left; split; [reflexivity|exact ET]|right].
    assert (O1 : q_opts s1 = q_opts s) by (change (q_opts s1) with (q_opts (but_ints s1)); rewrite B1; reflexivity).
    assert (T1 : q_nt s1 = q_nt s) by (change (q_nt s1) with (q_nt (but_ints s1)); rewrite B1; reflexivity).
    set (m2 := when (negb _ && _) _). set (m3 := when (rlt _ _) _).
    assert (K2 : exists s2, m2 s1 = (Done, s2, []) /\ tables_fit s2 /\ looks_safe s2 /\ q_opts s2 = q_opts s1 /\ q_nt s2 = q_nt s1 /\ tabs_of s2 = tabs_of s1).
    { assert (RM : o_int (q_opts s1) = true -> o_osc (q_opts s1) = true -> room s1).
      { intros I1 O2. rewrite O1 in I1. destruct (tf_sized s1 F1 (D1 I1)) as (_ & Z).
        rewrite <- O1 in I1. specialize (Z I1). unfold room. rewrite O2. destruct Z as (Z1 & Z2 & Z3).
        repeat split; try assumption. intro G. apply Z3. apply andb_prop in G. tauto. }
      unfold m2, when. rewrite <- O1. destruct (o_osc (q_opts s1)) eqn:OO; cbn [negb andb].
      - exists s1. refine (conj eq_refl (conj F1 (conj _ (conj eq_refl (conj eq_refl eq_refl))))). intro I1.
        destruct (i_tabs (q_ints s1)) as [tb|] eqn:TB; [|left; reflexivity]. right. exists tb.
        split; [reflexivity|]. split; [destruct (tf_full s1 F1 tb TB); congruence|auto].
      - destruct (o_int (q_opts s1)) eqn:OI1.
        + unfold modify. eexists. split; [reflexivity|]. split; [|split; [|repeat split]].
          * eapply fit_view; [|exact F1]. reflexivity.
          * intros _. cbn. destruct (i_tabs (q_ints s1)) as [tb|] eqn:TB; [|left; reflexivity].
            right. exists tb. split; [reflexivity|]. split; [destruct (tf_full s1 F1 tb TB); congruence|].
            unfold room. cbn. rewrite OO. eauto.
        + exists s1. refine (conj eq_refl (conj F1 (conj _ (conj eq_refl (conj eq_refl eq_refl))))). intro; congruence. }
    destruct K2 as (s2 & E2 & F2 & S2 & O2 & T2 & TB2).
    assert (TN : o_int (q_opts s) = true -> tabs_of s2 <> None).
    { intro OI. rewrite TB2. apply (tf_sized s1 F1 (D1 OI)). }
    assert (G2 : gr_on s2 = gr_on s) by (unfold gr_on; rewrite O2, T2, O1, T1; reflexivity).
    cbv beta iota. rewrite seq_eq, E2. unfold m3, when.
    destruct (rlt _ _).
    + unfold modify. eexists. split; [reflexivity|]. split; [|split; [|split; [exact G2|exact TN]]].
      * eapply fit_view; [|exact F2]. reflexivity.
      * eapply safe_view; [|exact S2]. reflexivity.
    + exists s2. auto. Qed.

(** an evolution of an object whose tables fit *)
Lemma evolve_state_fit s : tables_fit s -> lib_ok (e_default e) -> e_default e <> None ->
  safe (out_res (evolve_state e s)) /\ tables_fit (out_obj (evolve_state e s)) /\
  forall t, In (EvTables t) (out_evs (evolve_state e s)) ->
    i_tabs (q_ints (out_obj (evolve_state e s))) = Some t /\ tb_fill t = TFull /\
    (gr_on s = true -> tb_gr t = true).
Proof.
  intros F L D.
  destruct (q_body s) as [b|] eqn:B.
  2:{ unfold evolve_state, read. rewrite B. split; [discriminate|]. split; [exact F|intros t []]. }
  destruct (q_track s) as [t|] eqn:T.
  2:{ unfold evolve_state, read. rewrite B, T. destruct (negb _);
      (split; [discriminate|]; split; [exact F|intros t []]). }
  rewrite (evolve_state_eq e b t s B T). destruct (has_all s).
  2:{ split; [discriminate|]. split; [exact F|intros t0 []]. }
  rewrite seq_eq.
  pose proof (prep_fit s t F L D) as P.
  destruct P as [(-> & _)|(s1 & -> & F1 & S1 & G1 & _)]; [split; [discriminate|]; split; [exact F|intros t0 []]|].
  destruct (tail_striple s1 b t s s1) as (A1 & A2 & A3); [split; [reflexivity|exact S1]|].
  pose proof (view_tail b t s s1) as V. unfold keeps in V.
  destruct (tail_ e b t s s1) as [[r s2] e2]. cbn in *.
  split; [exact A3|]. split; [eapply fit_view; eassumption|].
  intros tb H. rewrite Forall_forall in A2. specialize (A2 _ H). cbn in A2.
  assert (V7 : i_tabs (q_ints s2) = i_tabs (q_ints s1)).
  { unfold tview in V. injection V as _ _ _ _ _ _ V7 _ _ _ _. exact V7. }
  rewrite V7. split; [exact A2|]. rewrite <- G1. exact (tf_full s1 F1 tb A2).
Qed.

(** ** Exact results for simple cases *)

Lemma pre_derive_eq x s t off b tb : q_track s = Some t -> q_offset s = Some off -> q_body s = Some b ->
  o_src (q_opts s) = false ->
  (o_int (q_opts s) = true -> i_tabs (q_ints s) = Some tb /\ tb_fill tb <> TEmpty /\ room s) ->
  pre_derive x s = (Done, set_q_x (x - off) s,
    EvQuery b x (x - off) :: if o_int (q_opts s) then [EvTables tb] else []).
Proof.
  intros T O B S N. unfold pre_derive, read. rewrite T, O, B, S. rewrite seq_modify.
  rewrite seq_eq. unfold emit. cbn [when]. rewrite seq_ret. unfold when.
  destruct (o_int (q_opts s)); [|reflexivity]. destruct (N eq_refl) as (T1 & T2 & T3).
  rewrite (use_interactions_eq (set_q_x (x - off) s) tb T1 T2 T3). reflexivity.
Qed.

Lemma pre_derive_out x s t off b tb : q_track s = Some t -> q_offset s = Some off -> q_body s = Some b ->
  o_src (q_opts s) = false -> o_int (q_opts s) = true -> i_tabs (q_ints s) = Some tb ->
  tb_fill tb = TEmpty \/ ~ room s ->
  out_res (pre_derive x s) = Undef OutOfBounds.
Proof.
  intros T O B S N TB R. unfold pre_derive, read. rewrite T, O, B, S, N. rewrite seq_modify.
  rewrite seq_eq. unfold emit. cbn [when]. rewrite seq_ret.
  rewrite (use_interactions_out (set_q_x (x - off) s) tb TB R). reflexivity.
Qed.

Lemma prep_simple t s : (o_int (q_opts s) = true -> i_done (q_ints s) = true /\ o_osc (q_opts s) = true) ->
  prep e t s = (Done, if rlt (tr_fin t) (tr_ini t) then put_sq_h (-1 * sq_h (q_sq s)) s else s, []).
Proof.
  intro H. unfold prep, read. rewrite seq_eq. unfold when at 1.
  assert (X : o_int (q_opts s) && negb (i_done (q_ints s)) = false).
  { destruct (o_int (q_opts s)); [|reflexivity]. destruct (H eq_refl) as (-> & _). reflexivity. }
  assert (Y : negb (o_osc (q_opts s)) && o_int (q_opts s) = false).
  { destruct (o_int (q_opts s)); [|apply andb_false_r]. destruct (H eq_refl) as (_ & ->). reflexivity. }
  rewrite X. unfold ret at 1. rewrite seq_eq, Y. unfold when, ret, modify. destruct (rlt _ _); reflexivity.
Qed.

(** an evolution that writes past the end of a buffer *)
Lemma evolve_state_out s b t off tb :
  q_body s = Some b -> q_track s = Some t -> q_offset s = Some off -> has_all s = true ->
  o_int (q_opts s) = true -> i_done (q_ints s) = true -> o_osc (q_opts s) = true ->
  o_src (q_opts s) = false -> o_pos (q_opts s) = false -> sq_num (q_sq s) = true ->
  i_tabs (q_ints s) = Some tb -> tb_fill tb = TEmpty \/ ~ room s ->
  (forall s1 dt, fst (fst (fst (e_solve e s1 dt))) <> []) ->
  out_res (exec e CEvolve s) = Undef OutOfBounds.
Proof.
  intros B T O H OI D OO OS OP NM TB R SV. cbn [exec]. rewrite (evolve_state_eq e b t s B T), H.
  rewrite seq_eq, prep_simple by auto.
  assert (SH : shortcut b s = false) by (unfold shortcut; rewrite OI; cbn; rewrite andb_false_r; reflexivity).
  unfold tail_. rewrite SH, OP.
  assert (K : forall s1, q_track s1 = Some t -> q_offset s1 = Some off -> q_body s1 = Some b ->
    o_src (q_opts s1) = false -> o_int (q_opts s1) = true -> i_tabs (q_ints s1) = Some tb ->
    tb_fill tb = TEmpty \/ ~ room s1 -> sq_num (q_sq s1) = true ->
    out_res (evolve e (tr_fin t - tr_ini t) s1) = Undef OutOfBounds).
  { intros s1 T1 O1 B1 S1 I1 TB1 R1 N1. unfold evolve, read. rewrite seq_eq. unfold emit. rewrite N1.
    specialize (SV s1 (tr_fin t - tr_ini t)).
    destruct (e_solve e s1 (tr_fin t - tr_ini t)) as [[[ts ok] t'] st]. cbn in SV.
    destruct ts as [|x ts]; [congruence|]. cbn [meach]. rewrite !seq_eq.
    pose proof (pre_derive_out x s1 t off b tb T1 O1 B1 S1 I1 TB1 R1) as P. unfold out_res in *.
    destruct (pre_derive x s1) as [[r s2] e2]. cbn in P. subst r. reflexivity. }
  set (s1 := if rlt (tr_fin t) (tr_ini t) then _ else s).
  assert (K1 : out_res (evolve e (tr_fin t - tr_ini t) s1) = Undef OutOfBounds).
  { unfold s1. destruct (rlt (tr_fin t) (tr_ini t)); apply K; assumption. }
  unfold out_res in *. destruct (evolve e _ s1) as [[r s2] e2]. exact K1.
Qed.

(** the first initialisation without tau regeneration and Glashow resonance *)
Lemma init_plain s x : i_done (q_ints s) = false -> e_tau e (q_E s) = true -> i_tabs (q_ints s) = None ->
  i_ncs (q_ints s) = Some x -> good_lib x = true -> o_int (q_opts s) = true ->
  o_tau (q_opts s) = false -> o_gr (q_opts s) = false ->
  init_interactions e s = (Done, put_i_done true (put_i_nc (r4 (q_ne s))
    (put_i_tabs (Some (Tabs TFull (targets_of x) (x_name x) false)) s)), []).
Proof.
  intros D ET T N G OI OT OG. unfold init_interactions. unfold read at 1. rewrite D, ET, T. cbn [negb].
  rewrite seq_eq. rewrite (build_ok s x); [|rewrite N; reflexivity|exact G].
  assert (GR : gr_on s = false) by (unfold gr_on; rewrite OG; reflexivity). rewrite GR.
  rewrite seq_eq. unfold read. cbn [put_i_tabs put_i_ncs set_q_ints q_opts q_ne]. rewrite OI, OT, OG.
  dest_nus s. cbn in N. subst. reflexivity.
Qed.

(** an evolution without interactions succeeds if the integrator does *)
Lemma evolve_state_ok s b t off : q_body s = Some b -> q_track s = Some t -> q_offset s = Some off ->
  has_all s = true -> o_int (q_opts s) = false -> o_src (q_opts s) = false ->
  shortcut b s = true \/ o_pos (q_opts s) = false ->
  (forall s1 dt, snd (fst (fst (e_solve e s1 dt))) = true) ->
  exists s' ev, exec e CEvolve s = (Done, s', ev).
Proof.
  intros B T O H OI OS SP SV. cbn [exec]. rewrite (evolve_state_eq e b t s B T), H.
  assert (P : exists s1, prep e t s = (Done, s1, []) /\ looks_ok s1).
  { assert (L : forall s1, q_track s1 = q_track s -> q_offset s1 = q_offset s -> q_body s1 = q_body s ->
       q_opts s1 = q_opts s -> looks_ok s1).
    { intros s1 X1 X2 X3 X4. unfold looks_ok. rewrite X1, X2, X3, X4, T, O, B, OS, OI.
      repeat split; discriminate. }
    rewrite prep_simple by congruence. eexists. split; [reflexivity|].
    destruct (rlt _ _); apply L; reflexivity. }
  destruct P as (s1 & P & L). rewrite seq_eq, P. unfold tail_.
  assert (K : forall m : M, out_res (m s1) = Done -> exists s' ev, (let '(r, s2, e2) := m s1 in (r, s2, [] ++ e2)) = (Done, s', ev)).
  { intros m M1. unfold out_res in M1. destruct (m s1) as [[r s2] e2]. cbn in M1. subst r. eauto. }
  destruct (shortcut b s).
  - apply K. rewrite evolve_const_eq, seq_eq. set (s2 := put_o_basis _ _).
    pose proof (evolve_ok (tr_fin t - tr_ini t) s2 L) as V. unfold out_res in *.
    destruct (evolve e _ s2) as [[r s3] e3]. cbn in V. rewrite V; [reflexivity|discriminate].
  - destruct SP as [SP|SP]; [discriminate SP|]. rewrite SP. apply K.
    apply (evolve_ok (tr_fin t - tr_ini t) s1 L). intros _. apply SV.
Qed.

Lemma init3_ok s t v n m : q_nt s = Both -> q_ne s = n -> q_nrhos s = 2%nat -> q_numneu s = m ->
  (0 < n)%nat -> (0 < m)%nat -> (m <= e_maxdim e)%nat ->
  f_body (q_flags s) = true -> f_track (q_flags s) = true -> f_energy (q_flags s) = true ->
  q_track s = Some t ->
  exists s', exec e (CInit3 n 2 m v BFlavor) s = (Done, s', []) /\ state_set e s s' t.
Proof.
  intros T N R M Hn Hm Hx B1 B2 B3 Q. subst n m.
  destruct (fill_state_eq e v BFlavor s t Hx Q B3) as (s3 & E3 & S3 & _).
  exists s3. split; [|exact S3]. cbn [exec]. unfold init_state3, read. rewrite checks_eq.
  cbn [existsb]. rewrite T, R, B1, B2, B3, !Nat.eqb_refl.
  destruct (Nat.eqb_spec (q_ne s * 2 * q_numneu s) 0) as [Z|_]; [nia|]. exact E3.
Qed.

(** ** Tables once made stay *)

Lemma init_keeps_tabs s t : tabs_of s = Some t -> tabs_of (out_obj (init_interactions e s)) = Some t.
Proof.
  intro T. unfold init_interactions. unfold read at 1. unfold tabs_of in *. rewrite T.
  assert (K : stable (keeps tabs_of) (if i_done (q_ints s) then ret else if negb (e_tau e (q_E s)) then throw else
     (ret ;; read (fun s =>
      when (o_int (q_opts s))
        (modify (put_i_nc (r4 (q_ne s))) ;;
         when (o_tau (q_opts s)) (modify (put_i_tau (r4 (q_ne s)))) ;;
         when (o_gr (q_opts s)) (modify (put_i_gr (r4 (q_ne s)))))) ;;
    modify (put_i_done true))%m)).
  { stab_with (keeps_r _ tabs_of) (keeps_t _ tabs_of). }
  specialize (K s). unfold keeps, tabs_of in K. rewrite K. exact T.
Qed.

Lemma tail_keeps_tabs b t s0 s : tabs_of (out_obj (tail_ e b t s0 s)) = tabs_of s.
Proof.
  pose proof (view_tail b t s0 s) as V. unfold keeps, tview in V.
  injection V as _ _ _ _ _ _ V7 _ _ _ _. exact V7.
Qed.

(** what the preparation does to the tables *)
Lemma prep_tabs t s : tabs_of (out_obj (prep e t s)) =
  tabs_of (if o_int (q_opts s) && negb (i_done (q_ints s)) then out_obj (init_interactions e s) else s).
Proof.
  unfold prep, read. rewrite seq_eq.
  set (m := when (_ && negb (i_done _)) _).
  assert (X : out_obj (m s) = if o_int (q_opts s) && negb (i_done (q_ints s)) then out_obj (init_interactions e s) else s).
  { unfold m, when. destruct (_ && _); reflexivity. }
  rewrite <- X. destruct (m s) as [[r s1] e1]. cbn [out_obj fst snd].
  destruct r; try reflexivity.
  assert (K : stable (keeps tabs_of) (when (negb (o_osc (q_opts s)) && o_int (q_opts s))
     (modify (fun s => put_i_cache (Some (q_nrhos s, q_ne s)) s)) ;;
    when (rlt (tr_fin t) (tr_ini t)) (modify (fun s => put_sq_h (-1 * sq_h (q_sq s)) s)))%m).
  { stab_with (keeps_r _ tabs_of) (keeps_t _ tabs_of). }
  specialize (K s1). unfold keeps in K. destruct (seq_ _ _ s1) as [[r s2] e2]. exact K.
Qed.

(** the tables used in an evolution are those the object has afterwards *)
Lemma pre_derive_tables x s tb : In (EvTables tb) (out_evs (pre_derive x s)) -> tabs_of s = Some tb.
Proof.
  unfold pre_derive, read. destruct (q_track s); [|intros []]. destruct (q_offset s) as [off|]; [|intros []].
  rewrite seq_modify. destruct (q_body s) as [b|]; [|intros []].
  rewrite seq_eq. unfold emit. rewrite seq_eq. set (s1 := set_q_x _ s).
  assert (K : In (EvTables tb) (out_evs (when (o_int (q_opts s)) use_interactions s1)) -> tabs_of s = Some tb).
  { unfold when. destruct (o_int (q_opts s)); [|intros []]. unfold use_interactions, read.
    change (i_tabs (q_ints s1)) with (tabs_of s). destruct (tabs_of s) as [t0|]; [|intros []].
    destruct (tb_fill t0); [intros []| |]; rewrite seq_eq;
      (destruct (o_osc (q_opts s1)); [destruct (_ && _ && _)|
         destruct (i_cache (q_ints s1)) as [[r n]|]; [destruct (_ && _)|]]); cbn; try tauto;
      intros [X|[]]; congruence. }
  unfold when at 1. destruct (o_src (q_opts s)); [destruct (Nat.eqb _ _)|]; cbn [ret undef].
  2: cbn; intros [X|[]]; discriminate X.
  all: unfold out_evs in *; destruct (when _ _ s1) as [[r s2] e2]; cbn in *;
       intros [X|X]; [discriminate X|exact (K X)].
Qed.

Definition tabs_are (T : option tabs) (s : nus) : Prop := tabs_of s = T.
Definition tables_in (T : option tabs) (ev : event) : Prop :=
  match ev with EvTables t => T = Some t | _ => True end.

Lemma tabs_modify T f : (forall s, tabs_of (f s) = tabs_of s) ->
  triple (tabs_are T) (tables_in T) (fun _ => True) (modify f).
Proof. intro H. apply tr_modify; [exact I|]. intros s K. unfold tabs_are in *. rewrite H. exact K. Qed.

Lemma pre_derive_ttriple T x : triple (tabs_are T) (tables_in T) (fun _ => True) (pre_derive x).
Proof.
  intros s K. split; [|split; [|exact I]].
  - pose proof (pre_derive_but_x x s) as B. unfold keeps in B. unfold tabs_are, tabs_of in *.
    change (i_tabs (q_ints (out_obj (pre_derive x s)))) with (i_tabs (q_ints (but_x (out_obj (pre_derive x s))))).
    rewrite B. exact K.
  - apply Forall_forall. intros [] H; cbn; try exact I. unfold tabs_are in K. rewrite <- K.
    eapply pre_derive_tables. exact H.
Qed.

Lemma evolve_ttriple T dt : triple (tabs_are T) (tables_in T) (fun _ => True) (evolve e dt).
Proof.
  unfold evolve. apply tr_read. intros s1 _. apply tr_seq; [apply tr_emit; exact I|].
  destruct (sq_num (q_sq s1)).
  - destruct (e_solve e s1 dt) as [[[ts ok] t'] st].
    apply tr_seq; [apply tr_meach; [exact I|intro; apply pre_derive_ttriple]|].
    destruct ok; [apply tabs_modify; reflexivity|].
    apply tr_seq; [apply tabs_modify; reflexivity|apply tr_throw; exact I].
  - apply tr_seq; [apply tabs_modify; reflexivity|]. apply tr_read. intros s2 _. apply pre_derive_ttriple.
Qed.

Lemma tail_ttriple T b t s1 : triple (tabs_are T) (tables_in T) (fun _ => True) (tail_ e b t s1).
Proof.
  unfold tail_. destruct (shortcut b s1); [|destruct (o_pos (q_opts s1))].
  - unfold evolve_const, set_basis. cbn [basis_eqb].
    repeat (apply tr_seq; [first [apply evolve_ttriple|apply tabs_modify; reflexivity]|]).
    apply tabs_modify; reflexivity.
  - unfold evolve_pos. apply tr_read. intros s2 _. cbv zeta.
    assert (P : triple (tabs_are T) (tables_in T) (fun _ => True) (positivize e)).
    { apply tr_seq; [apply tr_emit; exact I|apply tabs_modify; reflexivity]. }
    destruct (_ || _); [|apply tr_undef; exact I].
    destruct (to_int _); [|apply tr_undef; exact I].
    apply tr_seq; [|apply tr_seq; [apply evolve_ttriple|exact P]].
    apply tr_mfor; [exact I|]. intros _. apply tr_seq; [apply evolve_ttriple|exact P].
  - apply evolve_ttriple.
Qed.

(** empty tables are never used *)
Definition filled (ev : event) : Prop := match ev with EvTables t => tb_fill t <> TEmpty | _ => True end.

Lemma pre_derive_filled x : triple (fun _ => True) filled (fun _ => True) (pre_derive x).
Proof.
  unfold pre_derive. apply tr_read. intros s _.
  destruct (q_track s); [|apply tr_undef; exact I]. destruct (q_offset s); [|apply tr_undef; exact I].
  apply tr_seq; [apply tr_modify; auto; exact I|]. destruct (q_body s); [|apply tr_undef; exact I].
  apply tr_seq; [apply tr_emit; exact I|]. apply tr_seq.
  - apply tr_when; [exact I|]. intros _. destruct (Nat.eqb _ _); [apply tr_ret; exact I|apply tr_undef; exact I].
  - apply tr_when; [exact I|]. intros _. unfold use_interactions. apply tr_read. intros s1 _.
    destruct (i_tabs (q_ints s1)) as [t0|]; [|apply tr_undef; exact I].
    destruct (tb_fill t0) eqn:F; [apply tr_undef; exact I| |].
    all: apply tr_seq; [|apply tr_emit; [exact I|cbn; congruence]].
    all: destruct (o_osc (q_opts s1)); [destruct (_ && _ && _)|destruct (i_cache (q_ints s1)) as [[? ?]|]; [destruct (_ && _)|]].
    all: first [apply tr_ret; exact I|apply tr_undef; exact I].
Qed.

Lemma evolve_filled dt : triple (fun _ => True) filled (fun _ => True) (evolve e dt).
Proof.
  unfold evolve. apply tr_read. intros s1 _. apply tr_seq; [apply tr_emit; exact I|].
  destruct (sq_num (q_sq s1)).
  - destruct (e_solve e s1 dt) as [[[ts ok] t'] st].
    apply tr_seq; [apply tr_meach; [exact I|intro; apply pre_derive_filled]|].
    destruct ok; [apply tr_modify; auto; exact I|].
    apply tr_seq; [apply tr_modify; auto; exact I|apply tr_throw; exact I].
  - apply tr_seq; [apply tr_modify; auto; exact I|]. apply tr_read. intros s2 _. apply pre_derive_filled.
Qed.

Lemma tail_filled b t s1 : triple (fun _ => True) filled (fun _ => True) (tail_ e b t s1).
Proof.
  unfold tail_. destruct (shortcut b s1); [|destruct (o_pos (q_opts s1))].
  - unfold evolve_const, set_basis. cbn [basis_eqb].
    repeat (apply tr_seq; [first [apply evolve_filled|apply tr_modify; auto; exact I]|]).
    apply tr_modify; auto; exact I.
  - unfold evolve_pos. apply tr_read. intros s2 _. cbv zeta.
    assert (P : triple (fun _ => True) filled (fun _ => True) (positivize e)).
    { apply tr_seq; [apply tr_emit; exact I|apply tr_modify; auto; exact I]. }
    destruct (_ || _); [|apply tr_undef; exact I].
    destruct (to_int _); [|apply tr_undef; exact I].
    apply tr_seq; [|apply tr_seq; [apply evolve_filled|exact P]].
    apply tr_mfor; [exact I|]. intros _. apply tr_seq; [apply evolve_filled|exact P].
  - apply evolve_filled.
Qed.

Lemma evolve_state_filled s : Forall filled (out_evs (evolve_state e s)).
Proof.
  destruct (q_body s) as [b|] eqn:B; [|unfold evolve_state, read; rewrite B; constructor].
  destruct (q_track s) as [t|] eqn:T;
    [|unfold evolve_state, read; rewrite B, T; destruct (negb _); constructor].
  rewrite (evolve_state_eq e b t s B T). destruct (has_all s); [|constructor].
  rewrite seq_eq. destruct (prep_cases e t s) as (r & s1 & P & _). rewrite P. destruct r; try constructor.
  destruct (tail_filled b t s s1 I) as (_ & F & _). destruct (tail_ e b t s s1) as [[r s2] e2]. exact F.
Qed.

Lemma evolve_state_tables s : (exists b t, q_body s = Some b /\ q_track s = Some t /\
    tabs_of (out_obj (evolve_state e s)) = tabs_of (out_obj (prep e t s)) /\ has_all s = true /\
    forall tb, In (EvTables tb) (out_evs (evolve_state e s)) ->
      tabs_of (out_obj (evolve_state e s)) = Some tb) \/
  evolve_state e s = (Threw, s, []).
Proof.
  destruct (q_body s) as [b|] eqn:B; [|right; unfold evolve_state, read; rewrite B; reflexivity].
  destruct (q_track s) as [t|] eqn:T;
    [|right; unfold evolve_state, read; rewrite B, T; destruct (negb _); reflexivity].
  rewrite (evolve_state_eq e b t s B T). destruct (has_all s) eqn:HA; [|right; reflexivity].
  left. exists b, t. split; [reflexivity|]. split; [reflexivity|]. rewrite seq_eq.
  destruct (prep_cases e t s) as (r & s1 & P & U & _). rewrite P. cbn [out_obj fst snd].
  destruct r; [|split; [reflexivity|split; [reflexivity|intros tb []]]|split; [reflexivity|split; [reflexivity|intros tb []]]].
  destruct (tail_ttriple (tabs_of s1) b t s s1 eq_refl) as (A & F & _).
  destruct (tail_ e b t s s1) as [[r s2] e2]. cbn in *. unfold tabs_are in A.
  split; [exact A|]. split; [reflexivity|]. intros tb H. rewrite Forall_forall in F. specialize (F _ H).
  cbn in F. congruence.
Qed.

(** no call replaces the tables *)
Lemma exec_keeps_tabs c s t : wf e s -> tabs_of s = Some t -> tabs_of (out_obj (exec e c s)) = Some t.
Proof.
  intros W T. destruct (is_init c) eqn:I.
  { destruct (init_cases e c s W I) as [X|(tr & s1 & _ & X & S1 & _)]; rewrite X; [exact T|].
    cbn. unfold tabs_of. rewrite (ss_ints _ _ _ _ S1). exact T. }
  destruct (is_param c) eqn:P.
  { destruct (param_cases e c s W P) as [X|(s1 & X & F & _)]; rewrite X; [exact T|].
    cbn. rewrite F. exact T. }
  assert (K : stable (keeps tabs_of) (exec e c) -> tabs_of (out_obj (exec e c s)) = Some t).
  { intro K. specialize (K s). unfold keeps in K. congruence. }
  destruct c; try discriminate I; try discriminate P;
    try (apply K; cbn [exec]; unfold set_body, set_track, set_tau, set_gr, set_osc, set_pos, set_scale, set_const,
           set_basis, set_xs, set_sources; stab_with (keeps_r _ tabs_of) (keeps_t _ tabs_of); fail).
  - cbn [exec]. destruct (evolve_state_tables s) as [(b & tr & _ & _ & X & _)|X]; [|rewrite X; exact T].
    rewrite X, prep_tabs. destruct (_ && _); [apply init_keeps_tabs; exact T|exact T].
  - apply K. cbn [exec]. unfold get_hamiltonian. stab_with (keeps_r _ tabs_of) (keeps_t _ tabs_of).
    intro s1. destruct (pre_derive_ttriple (tabs_of s1) (sq_t (q_sq s0)) s1 eq_refl) as (X & _). exact X.
  - cbn [exec]. apply init_keeps_tabs. exact T.
Qed.

(** the tables made at the first use come from the library at hand *)
Lemma init_first s x t : tabs_of s = None -> i_ncs (q_ints s) = Some x ->
  tabs_of (out_obj (init_interactions e s)) = Some t -> tb_fill t = TFull \/ tb_fill t = TPart ->
  tb_xs t = x_name x.
Proof.
  intros T X. unfold init_interactions. unfold read at 1. change (i_tabs (q_ints s)) with (tabs_of s). rewrite T.
  destruct (i_done (q_ints s)); [intro Y; cbn in Y; congruence|].
  destruct (e_tau e (q_E s)); [|intro Y; cbn in Y; congruence]. cbn [negb].
  rewrite seq_eq.
  assert (B : (exists n, tabs_of (out_obj (build_tables e s)) = Some (Tabs TEmpty n 0 false)) \/
              (exists f n g, tabs_of (out_obj (build_tables e s)) = Some (Tabs f n (x_name x) g))).
  { unfold build_tables. rewrite seq_modify, seq_eq. unfold read at 1 3.
    set (s1 := put_i_tabs _ s).
    change (i_ncs (q_ints s1)) with (i_ncs (q_ints s)). rewrite X. unfold ret.
    unfold read. change (i_ncs (q_ints s1)) with (i_ncs (q_ints s)). rewrite X. cbv zeta.
    destruct (Nat.eqb _ 0); [left; eexists; reflexivity|]. right.
    rewrite seq_modify. destruct (negb (x_valid x)); [eexists _, _, _; reflexivity|].
    destruct (_ && _); eexists _, _, _; reflexivity. }
  destruct (build_tables e s) as [[r s1] e1]. cbn [out_obj fst snd] in B.
  assert (K : forall s2, tabs_of s2 = tabs_of s1 -> tabs_of s2 = Some t ->
     tb_fill t = TFull \/ tb_fill t = TPart -> tb_xs t = x_name x).
  { intros s2 E2 Y F. rewrite E2 in Y. destruct B as [(n & B)|(f & n & g & B)]; rewrite B in Y;
      injection Y as <-; [destruct F; discriminate|reflexivity]. }
  destruct r; [|apply K; reflexivity|apply K; reflexivity].
  set (m := seq_ _ _).
  assert (S1 : stable (keeps tabs_of) m) by (unfold m; stab_with (keeps_r _ tabs_of) (keeps_t _ tabs_of)).
  specialize (S1 s1). unfold keeps in S1. destruct (m s1) as [[r s2] e2]. apply K. exact S1.
Qed.

(** an evolution with interactions succeeds if libraries and integrator do *)
Lemma evolve_state_ok_int s b t : tables_fit s -> lib_ok (e_default e) -> e_default e <> None ->
  e_tau e (q_E s) = true -> q_body s = Some b -> q_track s = Some t -> q_offset s <> None ->
  has_all s = true -> o_int (q_opts s) = true -> o_src (q_opts s) = false -> o_pos (q_opts s) = false ->
  (forall s1 dt, snd (fst (fst (e_solve e s1 dt))) = true) ->
  (forall s1 dt, fst (fst (fst (e_solve e s1 dt))) <> []) -> sq_num (q_sq s) = true ->
  exists s' ev tb, exec e CEvolve s = (Done, s', ev) /\ In (EvTables tb) ev.
Proof.
  intros F L D ET B T O H OI OS OP SV SN NM. cbn [exec]. rewrite (evolve_state_eq e b t s B T), H.
  destruct (prep_fit s t F L D) as [(_ & X)|(s1 & P & F1 & S1 & G1 & T1)]; [congruence|].
  destruct (prep_cases e t s) as (r & s2 & P2 & _ & BI & _). rewrite P in P2. injection P2 as <- <-.
  specialize (BI eq_refl). rewrite seq_eq, P. specialize (T1 OI).
  assert (O1 : q_opts s1 = q_opts s) by (change (q_opts s1) with (q_opts (but_ints s1)); rewrite BI; reflexivity).
  assert (SH : shortcut b s = false) by (unfold shortcut; rewrite OI; cbn; rewrite andb_false_r; reflexivity).
  unfold tail_. rewrite SH, OP.
  assert (Q1 : q_track s1 = Some t) by (change (q_track s1) with (q_track (but_ints s1)); rewrite BI; exact T).
  assert (Q2 : q_body s1 = Some b) by (change (q_body s1) with (q_body (but_ints s1)); rewrite BI; exact B).
  destruct (q_offset s) as [off|] eqn:QO; [|congruence].
  assert (Q3 : q_offset s1 = Some off) by (change (q_offset s1) with (q_offset (but_ints s1)); rewrite BI; exact QO).
  assert (N1 : sq_num (q_sq s1) = true) by (change (sq_num (q_sq s1)) with (sq_num (q_sq (but_ints s1))); rewrite BI; exact NM).
  rewrite <- O1 in OI, OS. destruct (S1 OI) as [X|(tb & X1 & X2 & X3)]; [exfalso; exact (T1 X)|].
  assert (K : looks_ok s1).
  { unfold looks_ok. rewrite Q1, Q2, Q3, OS. repeat split; try discriminate. intros _. eauto. }
  assert (EV : out_res (evolve e (tr_fin t - tr_ini t) s1) = Done /\
    In (EvTables tb) (out_evs (evolve e (tr_fin t - tr_ini t) s1))).
  { split; [apply evolve_ok; [exact K|intros _; apply SV]|].
    unfold evolve, read. rewrite seq_eq. unfold emit. rewrite N1.
    specialize (SV s1 (tr_fin t - tr_ini t)). specialize (SN s1 (tr_fin t - tr_ini t)).
    destruct (e_solve e s1 (tr_fin t - tr_ini t)) as [[[ts ok] t'] st]. cbn in SV, SN. subst ok.
    destruct ts as [|x ts]; [congruence|]. rewrite seq_eq. cbn [meach]. rewrite seq_eq.
    rewrite (pre_derive_eq x s1 t off b tb Q1 Q3 Q2 OS) by auto. rewrite OI.
    pose proof (meach_ok ts (set_q_x (x - off) s1)) as M. unfold out_res in M.
    assert (K2 : looks_ok (set_q_x (x - off) s1)) by exact K. specialize (M K2).
    destruct (meach ts pre_derive (set_q_x (x - off) s1)) as [[r s3] e3]. cbn in M. subst r.
    cbn. tauto. }
  destruct EV as (EV1 & EV2). unfold out_res, out_evs in *.
  destruct (evolve e (tr_fin t - tr_ini t) s1) as [[r s2] e2]. cbn in EV1, EV2. subst r.
  exists s2, e2, tb. split; [reflexivity|exact EV2].
Qed.

End Machine.
