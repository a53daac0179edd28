(** Proofs about the ensemble of zenith nodes. *)
From Coq Require Import Reals List Arith Bool Lia Lra.
From Verif Require Import IntModel XsModel XsProofs StateModel StateProofs StateHistory StateLaws StateReady StateFrames AtmModel.
Import ListNotations.

(** ** Loops over the nodes *)

Lemma each_rel (Q : nus -> nus -> Prop) f : (forall s, Q s s) -> (forall j s, Q s (out_obj (f j s))) ->
  forall l i, Forall2 Q l (snd (each f i l)).
Proof.
  intros Qr H. induction l as [|s l IH]; intro i; cbn [each]; [constructor|].
  pose proof (H i s) as Hs. destruct (f i s) as [[r s'] ev]. cbn in Hs.
  assert (X : Forall2 Q l l) by (clear - Qr; induction l; constructor; auto).
  destruct r; [|constructor; assumption|constructor; assumption].
  specialize (IH (S i)). destruct (each f (S i) l) as [r l2]. constructor; [exact Hs|exact IH].
Qed.

Lemma each_rel_in (Q : nus -> nus -> Prop) (l : list nus) : forall f i, (forall s, Q s s) ->
  (forall j s, In s l -> Q s (out_obj (f j s))) -> Forall2 Q l (snd (each f i l)).
Proof.
  induction l as [|s l IH]; intros f i Qr H; cbn [each]; [constructor|].
  pose proof (H i s (or_introl eq_refl)) as Hs. destruct (f i s) as [[r s'] ev]. cbn in Hs.
  assert (X : Forall2 Q l l) by (clear - Qr; induction l; constructor; auto).
  destruct r; [|constructor; assumption|constructor; assumption].
  specialize (IH f (S i) Qr ltac:(intros; apply H; right; assumption)).
  destruct (each f (S i) l) as [r l2]. constructor; [exact Hs|exact IH].
Qed.

(** all succeed *)
Lemma each_done (m : M) l : forall i, (forall s, In s l -> out_res (m s) = Done) ->
  each (fun _ => m) i l = (Done, map (fun s => out_obj (m s)) l).
Proof.
  induction l as [|s l IH]; intros i H; [reflexivity|]. cbn [each map].
  pose proof (H s (or_introl eq_refl)) as Hs. destruct (m s) as [[r s'] ev]. cbn in Hs. subst r.
  rewrite (IH (S i)) by (intros; apply H; right; assumption). reflexivity.
Qed.

(** the first fails *)
Lemma each_first (f : nat -> M) s l i : out_res (f i s) <> Done ->
  each f i (s :: l) = (out_res (f i s), out_obj (f i s) :: l).
Proof. intro H. cbn [each]. destruct (f i s) as [[r s'] ev]. cbn in *. destruct r; [congruence|reflexivity|reflexivity]. Qed.

(** outcomes only *)
Lemma each_res (m : M) l : forall i,
  (fst (each (fun _ => m) i l) = Done <-> forall s, In s l -> out_res (m s) = Done).
Proof.
  induction l as [|s l IH]; intro i; cbn [each]; [split; [intros _ s []|reflexivity]|].
  destruct (m s) as [[r s'] ev] eqn:E.
  assert (R : out_res (m s) = r) by (rewrite E; reflexivity).
  destruct r.
  - specialize (IH (S i)). destruct (each (fun _ => m) (S i) l) as [r l2]. cbn in *. rewrite IH. split.
    + intros H u [<-|Hu]; [exact R|auto].
    + intros H u Hu. apply H. auto.
  - cbn. split; [discriminate|]. intro H. rewrite <- (H s (or_introl eq_refl)). symmetry. exact R.
  - cbn. split; [discriminate|]. intro H. rewrite <- (H s (or_introl eq_refl)). symmetry. exact R.
Qed.

Lemma each_threw (m : M) l : forall i, (forall s u, In s l -> out_res (m s) <> Undef u) ->
  (fst (each (fun _ => m) i l) = Threw <-> exists s, In s l /\ out_res (m s) = Threw).
Proof.
  induction l as [|s l IH]; intros i H; cbn [each]; [split; [discriminate|intros (s & [] & _)]|].
  pose proof (H s) as Hs. destruct (m s) as [[r s'] ev] eqn:E.
  assert (R : out_res (m s) = r) by (rewrite E; reflexivity). cbn in Hs.
  destruct r.
  - specialize (IH (S i) ltac:(intros; apply H; right; assumption)).
    destruct (each (fun _ => m) (S i) l) as [r l2]. cbn in *. rewrite IH. split.
    + intros (u & Hu & Eu). exists u. auto.
    + intros (u & [<-|Hu] & Eu); [congruence|]. exists u. auto.
  - cbn. split; [intros _; exists s; auto|reflexivity].
  - exfalso. exact (Hs u (or_introl eq_refl) eq_refl).
Qed.

(** ** The settings of a node *)

(** What the setters of the ensemble are about: type, sizes, energies, mixing parameters, switches, medium. *)
Record same (a b : nus) : Prop := {
  sm_nt : q_nt a = q_nt b; sm_numneu : q_numneu a = q_numneu b; sm_ne : q_ne a = q_ne b;
  sm_nrhos : q_nrhos a = q_nrhos b; sm_E : q_E a = q_E b;
  sm_angle : forall i j, p_angle (q_pars a) i j = p_angle (q_pars b) i j;
  sm_phase : forall i j, p_phase (q_pars a) i j = p_phase (q_pars b) i j;
  sm_dm : forall i, p_dm (q_pars a) i = p_dm (q_pars b) i;
  sm_switches : switches a = switches b; sm_body : q_body a = q_body b }.

Lemma same_refl a : same a a. Proof. constructor; reflexivity. Qed.
Lemma same_sym a b : same a b -> same b a. Proof. intros []. constructor; intros; symmetry; auto. Qed.
Lemma same_trans a b c : same a b -> same b c -> same a c.
Proof. intros [] []. constructor; intros; etransitivity; eauto. Qed.

Definition settings (s : nus) := (q_nt s, q_numneu s, q_ne s, q_nrhos s, q_E s, q_pars s, switches s, q_body s).
Lemma settings_same a b : settings a = settings b -> same a b.
Proof.
  unfold settings. intro H. injection H as H1 H2 H3 H4 H5 H6 H7 H8 H9 H10 H11 H12 H13 H14 H15.
  constructor; try congruence; intros; rewrite ?H6; try reflexivity.
  unfold switches. congruence.
Qed.

Section Atm.
Variable e : env.

(** What holds of every node of an ensemble. *)
Record node_ok (s : nus) : Prop := {
  no_min : (3 <= q_numneu s)%nat; no_max : (q_numneu s <= e_maxdim e)%nat;
  no_body : f_body (q_flags s) = true; no_track : f_track (q_flags s) = true; no_energy : f_energy (q_flags s) = true;
  no_path : q_track s <> None }.

Definition has (s : nus) := (f_body (q_flags s), f_track (q_flags s), f_energy (q_flags s), q_track s).
Lemma node_ok_view a b : settings a = settings b -> has a = has b -> node_ok a -> node_ok b.
Proof.
  unfold settings, has. intros H K [A1 A2 A3 A4 A5 A6].
  injection H as H1 H2 H3 H4 H5 H6 H7 H8 H9 H10 H11 H12 H13 H14 H15. injection K as K1 K2 K3 K4. constructor; congruence.
Qed.

(** the node is kept, up to [same] *)
Definition kept (a b : nus) : Prop := node_ok a -> node_ok b /\ same a b.
Lemma kept_refl a : kept a a. Proof. intro H. split; [exact H|apply same_refl]. Qed.

Lemma view_kept a b : settings b = settings a -> has b = has a -> kept a b.
Proof. intros H K N. split; [apply (node_ok_view a b); congruence|]. apply settings_same. congruence. Qed.

(** ** Evolution keeps the settings *)

Lemma evolve_view s : (settings (out_obj (evolve_state e s)), has (out_obj (evolve_state e s))) = (settings s, has s).
Proof.
  destruct (evolve_state_view e _ (fun s => (settings s, has s)) s) as [X|(t & _ & X)]; try reflexivity; exact X.
Qed.
Lemma evolve_kept s : kept s (out_obj (evolve_state e s)).
Proof. pose proof (evolve_view s) as X. injection X as X1 X2. apply view_kept; unfold settings, switches, has; congruence. Qed.

Lemma init_int_kept s : kept s (out_obj (init_interactions e s)).
Proof.
  pose proof (init_but_ints e s) as B. unfold keeps in B.
  apply view_kept.
  - change (settings (but_ints (out_obj (init_interactions e s))) = settings (but_ints s)). rewrite B. reflexivity.
  - change (has (but_ints (out_obj (init_interactions e s))) = has (but_ints s)). rewrite B. reflexivity.
Qed.

Lemma kept_trans a b c : kept a b -> kept b c -> kept a c.
Proof. intros H K N. destruct (H N) as [Nb Sb]. destruct (K Nb) as [Nc Sc]. split; [exact Nc|]. eapply same_trans; eauto. Qed.

Lemma share_kept s t : kept s (out_obj ((modify (put_i_tabs t) ;; init_interactions e)%m s)).
Proof.
  rewrite seq_eq. unfold modify. pose proof (init_int_kept (put_i_tabs t s)) as K.
  destruct (init_interactions e (put_i_tabs t s)) as [[r s'] ev]. cbn in *.
  eapply kept_trans; [|exact K]. apply view_kept; reflexivity.
Qed.

(** ** Setting the state keeps them *)

Lemma init2_cases d1 d2 v b s : node_ok s -> forall s2, same s s2 -> node_ok s2 -> forall v2,
  (out_res (init_state2 e d1 d2 v b s) = out_res (init_state2 e d1 d2 v2 b s2)) /\
  (out_res (init_state2 e d1 d2 v b s) = Done \/ init_state2 e d1 d2 v b s = (Threw, s, [])).
Proof.
  intros N s2 S N2 v2. unfold init_state2, read. rewrite !checks_eq.
  rewrite <- (sm_ne _ _ S), <- (sm_numneu _ _ S), <- (sm_nt _ _ S).
  rewrite (no_track _ N), (no_track _ N2), (no_body _ N), (no_body _ N2), (no_energy _ N), (no_energy _ N2).
  destruct (existsb _ _); [split; auto|].
  destruct (q_track s) as [t|] eqn:T; [|exfalso; exact (no_path _ N T)].
  destruct (q_track s2) as [t2|] eqn:T2; [|exfalso; exact (no_path _ N2 T2)].
  destruct (fill_state_eq e (fun i _ j => v i j) b s t (no_max _ N) T (no_energy _ N)) as (s' & -> & _).
  destruct (fill_state_eq e (fun i _ j => v2 i j) b s2 t2 (no_max _ N2) T2 (no_energy _ N2)) as (s2' & -> & _).
  split; [reflexivity|left; reflexivity].
Qed.

Lemma init3_cases d1 d2 d3 v b s : node_ok s -> forall s2, same s s2 -> node_ok s2 -> forall v2,
  (out_res (init_state3 e d1 d2 d3 v b s) = out_res (init_state3 e d1 d2 d3 v2 b s2)) /\
  (out_res (init_state3 e d1 d2 d3 v b s) = Done \/ init_state3 e d1 d2 d3 v b s = (Threw, s, [])).
Proof.
  intros N s2 S N2 v2. unfold init_state3, read. rewrite !checks_eq.
  rewrite <- (sm_ne _ _ S), <- (sm_numneu _ _ S), <- (sm_nt _ _ S), <- (sm_nrhos _ _ S).
  rewrite (no_track _ N), (no_track _ N2), (no_body _ N), (no_body _ N2), (no_energy _ N), (no_energy _ N2).
  destruct (existsb _ _); [split; auto|].
  destruct (q_track s) as [t|] eqn:T; [|exfalso; exact (no_path _ N T)].
  destruct (q_track s2) as [t2|] eqn:T2; [|exfalso; exact (no_path _ N2 T2)].
  destruct (fill_state_eq e v b s t (no_max _ N) T (no_energy _ N)) as (s' & -> & _).
  destruct (fill_state_eq e v2 b s2 t2 (no_max _ N2) T2 (no_energy _ N2)) as (s2' & -> & _).
  split; [reflexivity|left; reflexivity].
Qed.

Lemma filled_kept s s' t : state_set e s s' t -> kept s s'.
Proof.
  intros S N. split.
  - constructor; rewrite ?(ss_numneu _ _ _ _ S), ?(ss_flags _ _ _ _ S), ?(ss_track _ _ _ _ S); try apply N; cbn; try apply N. discriminate.
  - apply same_sym. constructor; try apply S; intros.
    + rewrite (ss_angle _ _ _ _ S). reflexivity.
    + rewrite (ss_dm _ _ _ _ S). reflexivity.
    + unfold switches. rewrite (ss_opts _ _ _ _ S). reflexivity.
Qed.

Lemma init2_kept d1 d2 v b s : kept s (out_obj (init_state2 e d1 d2 v b s)).
Proof.
  intro N. unfold init_state2, read. rewrite checks_eq. destruct (existsb _ _); [apply kept_refl, N|].
  destruct (q_track s) as [t|] eqn:T; [|exfalso; exact (no_path _ N T)].
  destruct (fill_state_eq e (fun i _ j => v i j) b s t (no_max _ N) T (no_energy _ N)) as (s' & -> & S & _).
  exact (filled_kept s s' t S N).
Qed.
Lemma init3_kept d1 d2 d3 v b s : kept s (out_obj (init_state3 e d1 d2 d3 v b s)).
Proof.
  intro N. unfold init_state3, read. rewrite checks_eq. destruct (existsb _ _); [apply kept_refl, N|].
  destruct (q_track s) as [t|] eqn:T; [|exfalso; exact (no_path _ N T)].
  destruct (fill_state_eq e v b s t (no_max _ N) T (no_energy _ N)) as (s' & -> & S & _).
  exact (filled_kept s s' t S N).
Qed.

(** ** The setters *)

(** Set_MixingParametersToDefault as a function on the parameters *)
Lemma defaults_fun : exists f : pars -> pars,
  (forall p i j, p_angle (f p) i j = upd2 (upd2 (upd2 (p_angle p) 0 1 (583638 / 1000000)) 0 2 (149575 / 1000000)) 1 2 (855211 / 1000000) i j) /\
  (forall p i j, p_phase (f p) i j = upd2 (p_phase p) 0 2 0 i j) /\
  (forall p i, p_dm (f p) i = upd1 (upd1 (p_dm p) 1 (7420 / 100000000)) 2 (2514 / 1000000) i) /\
  forall s, (3 <= q_numneu s)%nat -> (q_numneu s <= e_maxdim e)%nat ->
    set_defaults e s = (Done, put_f_state false (set_q_pars (f (q_pars s)) s), []).
Proof.
  pose proof (sets_seq e _ _ _ _ (sets_angle e 0 1 (583638 / 1000000) ltac:(lia) ltac:(lia))
    (sets_seq e _ _ _ _ (sets_angle e 0 2 (149575 / 1000000) ltac:(lia) ltac:(lia))
    (sets_seq e _ _ _ _ (sets_angle e 1 2 (855211 / 1000000) ltac:(lia) ltac:(lia))
    (sets_seq e _ _ _ _ (sets_dm e 1 (7420 / 100000000) ltac:(lia))
    (sets_seq e _ _ _ _ (sets_dm e 2 (2514 / 1000000) ltac:(lia))
    (sets_phase e 0 2 0 ltac:(lia) ltac:(lia))))))) as X.
  eexists. split; [|split; [|split]]; [| | |exact X]; intros p; destruct p; reflexivity.
Qed.

Lemma upd2_ext f g i j v a b : (forall a b, f a b = g a b) -> upd2 f i j v a b = upd2 g i j v a b.
Proof. intro H. unfold upd2. destruct (_ && _); auto. Qed.
Lemma upd1_ext f g i v a : (forall a, f a = g a) -> upd1 f i v a = upd1 g i v a.
Proof. intro H. unfold upd1. destruct (Nat.eqb _ _); auto. Qed.

(** a setter treats nodes with the same settings alike; refused, it changes nothing *)
Definition alike (m : M) : Prop := forall s s2, node_ok s -> node_ok s2 -> same s s2 ->
  out_res (m s) = out_res (m s2) /\
  (out_res (m s) = Done /\ node_ok (out_obj (m s)) /\ same (out_obj (m s)) (out_obj (m s2)) \/
   out_res (m s) = Threw /\ out_obj (m s) = s).

Lemma alike_modify f : (forall s, node_ok s -> node_ok (f s)) ->
  (forall s s2, node_ok s -> node_ok s2 -> same s s2 -> same (f s) (f s2)) -> alike (modify f).
Proof. intros H K s s2 N N2 S. unfold modify. cbn. split; [reflexivity|left]. auto. Qed.

Ltac nok N := destruct N; constructor; assumption.
Ltac sm S := let H := fresh in pose proof (sm_switches _ _ S) as H; unfold switches in H; injection H as ? ? ? ? ? ? ? ?;
  destruct S; constructor; try assumption; try reflexivity; unfold switches; cbn in *; congruence.

Lemma alike_set c : alike (exec e (node_call c)).
Proof.
  destruct c; cbn [node_call exec].
  - intros s s2 N N2 S. unfold set_angle, read. rewrite <- (sm_numneu _ _ S).
    destruct (_ || _); [split; auto|]. destruct (accepts e i j); [|split; auto].
    split; [reflexivity|left]. unfold modify, out_res, out_obj. cbn [fst snd].
    split; [reflexivity|]. split; [nok N|]. destruct S. constructor; cbn; auto. intros. apply upd2_ext. assumption.
  - intros s s2 N N2 S. unfold set_phase, read. rewrite <- (sm_numneu _ _ S).
    destruct (_ || _); [split; auto|]. destruct (accepts e i j); [|split; auto].
    split; [reflexivity|left]. unfold modify, out_res, out_obj. cbn [fst snd].
    split; [reflexivity|]. split; [nok N|]. destruct S. constructor; cbn; auto. intros. apply upd2_ext. assumption.
  - intros s s2 N N2 S. unfold set_dm, read. rewrite <- (sm_numneu _ _ S).
    destruct (Nat.ltb _ _); [split; auto|]. destruct (accepts1 e i); [|split; auto].
    split; [reflexivity|left]. unfold modify, out_res, out_obj. cbn [fst snd].
    split; [reflexivity|]. split; [nok N|]. destruct S. constructor; cbn; auto. intros. apply upd1_ext. assumption.
  - intros s s2 N N2 S. destruct defaults_fun as (f & Fa & Fp & Fd & F).
    rewrite (F s (no_min _ N) (no_max _ N)), (F s2 (no_min _ N2) (no_max _ N2)).
    split; [reflexivity|left]. unfold out_res, out_obj. cbn [fst snd].
    split; [reflexivity|]. split; [nok N|]. destruct S.
    constructor; cbn; auto; intros; rewrite ?Fa, ?Fp, ?Fd; repeat (apply upd2_ext || apply upd1_ext; intros); auto.
  - intros s s2 N N2 S. unfold set_tau, read. rewrite <- (sm_numneu _ _ S), <- (sm_nt _ _ S).
    pose proof (sm_switches _ _ S) as W. unfold switches in W. injection W as W0 _ _ _ _ _ _ _. rewrite <- W0.
    destruct (_ && _); [split; auto|]. destruct (_ && _); [split; auto|]. destruct (_ && _); [split; auto|].
    split; [reflexivity|left]. split; [reflexivity|]. split; [nok N|]. sm S.
  - intros s s2 N N2 S. unfold set_gr, read.
    pose proof (sm_switches _ _ S) as W. unfold switches in W. injection W as W0 _ _ _ _ _ _ _. rewrite <- W0.
    destruct (_ && _); [split; auto|].
    split; [reflexivity|left]. split; [reflexivity|]. split; [nok N|]. sm S.
  - apply alike_modify; [intros s N; nok N|intros s s2 N N2 S; sm S].
  - apply alike_modify; [intros s N; nok N|intros s s2 N N2 S; sm S].
  - apply alike_modify; [intros s N; nok N|intros s s2 N N2 S; sm S].
  - apply alike_modify; [intros s N; nok N|intros s s2 N N2 S; sm S].
  - apply alike_modify; [intros s N; destruct b; nok N|intros s s2 N N2 S; destruct b; sm S].
Qed.

Lemma alike_body b : alike (set_body b).
Proof.
  apply alike_modify; [intros s N; destruct N; constructor; try assumption; reflexivity|intros s s2 N N2 S; sm S].
Qed.
Lemma alike_xs x : alike (set_xs x).
Proof. apply alike_modify; [intros s N; nok N|intros s s2 N N2 S; sm S]. Qed.
Lemma alike_step h : alike (modify (put_sq_h h)).
Proof. apply alike_modify; [intros s N; nok N|intros s s2 N N2 S; sm S]. Qed.

(** ** Interaction tables *)

Definition done_tabs (s : nus) : Prop := i_done (q_ints s) = true -> i_tabs (q_ints s) <> None.

Lemma build_spec s : out_res (build_tables e s) = Done -> i_tabs (q_ints (out_obj (build_tables e s))) <> None.
Proof.
  unfold build_tables, seq_, modify, read, ret, throw, undef. cbv beta iota.
  set (s1 := put_i_tabs _ s). destruct (i_ncs (q_ints s1)) as [x|] eqn:X.
  2:{ destruct (e_default e) as [x|]; [|discriminate]. cbv beta iota. cbn [put_i_ncs q_ints set_q_ints i_ncs set_i_ncs].
      destruct (Nat.eqb _ 0); [discriminate|]. destruct (negb (x_valid x)); [discriminate|].
      destruct (_ && _); [discriminate|]. cbn. discriminate. }
  cbv beta iota. rewrite X. destruct (Nat.eqb _ 0); [discriminate|]. destruct (negb (x_valid x)); [discriminate|].
  destruct (_ && _); [discriminate|]. cbn. discriminate.
Qed.

Lemma build_done s : i_done (q_ints (out_obj (build_tables e s))) = i_done (q_ints s).
Proof.
  assert (K : stable (keeps (fun s => i_done (q_ints s))) (build_tables e)); [|exact (K s)].
  unfold build_tables. stab_with (keeps_r _ (fun s => i_done (q_ints s))) (keeps_t _ (fun s => i_done (q_ints s))).
Qed.

Lemma init_spec s :
  (out_res (init_interactions e s) = Done -> done_tabs s ->
     i_done (q_ints (out_obj (init_interactions e s))) = true /\ i_tabs (q_ints (out_obj (init_interactions e s))) <> None) /\
  (i_tabs (q_ints s) <> None -> i_tabs (q_ints (out_obj (init_interactions e s))) = i_tabs (q_ints s)) /\
  (out_res (init_interactions e s) <> Done -> i_done (q_ints (out_obj (init_interactions e s))) = false).
Proof.
  destruct (init_interactions e s) as [[r s'] ev] eqn:X. unfold out_res, out_obj. cbn [fst snd]. revert X.
  unfold init_interactions. unfold read at 1. destruct (i_done (q_ints s)) eqn:D.
  { unfold ret. intro X. injection X as <- <- <-. split; [|split; [reflexivity|congruence]]. intros _ H. split; [exact D|exact (H D)]. }
  destruct (negb (e_tau e (q_E s))).
  { unfold throw. intro X. injection X as <- <- <-. split; [discriminate|]. split; [reflexivity|]. intros _. exact D. }
  rewrite seq_eq.
  assert (T : forall s1, exists s2, (modify (put_i_nc (r4 (q_ne s1))) ;;
         when (o_tau (q_opts s1)) (modify (put_i_tau (r4 (q_ne s1)))) ;;
         when (o_gr (q_opts s1)) (modify (put_i_gr (r4 (q_ne s1)))))%m s1 = (Done, s2, []) /\ i_tabs (q_ints s2) = i_tabs (q_ints s1)).
  { intro s1. destruct (o_tau (q_opts s1)), (o_gr (q_opts s1)); eexists; split; reflexivity. }
  assert (Y : forall s1, exists s2, (read (fun s =>
      when (o_int (q_opts s))
        (modify (put_i_nc (r4 (q_ne s))) ;;
         when (o_tau (q_opts s)) (modify (put_i_tau (r4 (q_ne s)))) ;;
         when (o_gr (q_opts s)) (modify (put_i_gr (r4 (q_ne s)))))) ;;
    modify (put_i_done true))%m s1 = (Done, s2, []) /\ i_tabs (q_ints s2) = i_tabs (q_ints s1) /\ i_done (q_ints s2) = true).
  { intro s1. rewrite seq_eq. unfold read. unfold when at 1. destruct (o_int (q_opts s1)).
    - destruct (T s1) as (s2 & -> & E). eexists. split; [reflexivity|]. split; [exact E|reflexivity].
    - eexists. split; [reflexivity|]. split; reflexivity. }
  destruct (i_tabs (q_ints s)) eqn:E.
  - unfold ret at 1. destruct (Y s) as (s2 & -> & E2 & D2). intro X. injection X as <- <- <-. rewrite E2, E, D2.
    repeat split; congruence.
  - pose proof (build_spec s) as B. pose proof (build_done s) as Bd.
    destruct (build_tables e s) as [[r1 s1] e1]. cbn in B, Bd. destruct r1.
    + destruct (Y s1) as (s2 & -> & E2 & D2). intro X. injection X as <- <- <-. rewrite E2, D2. repeat split; auto; congruence.
    + intro X. injection X as <- <- <-. repeat split; try discriminate; try congruence.
    + intro X. injection X as <- <- <-. repeat split; try discriminate; try congruence.
Qed.

Lemma evolve_tabs s : i_done (q_ints s) = true ->
  i_tabs (q_ints (out_obj (evolve_state e s))) = i_tabs (q_ints s) /\ i_done (q_ints (out_obj (evolve_state e s))) = true.
Proof.
  intro D. set (V := fun s => (i_tabs (q_ints s), i_done (q_ints s))).
  enough (X : V (out_obj (evolve_state e s)) = V s) by (unfold V in X; injection X as X1 X2; rewrite X1, X2; auto).
  destruct (q_body s) as [b|] eqn:B; [|unfold evolve_state, read; rewrite B; auto].
  destruct (q_track s) as [t|] eqn:T.
  2:{ unfold evolve_state, read. rewrite B, T. destruct (negb _); auto. }
  rewrite (evolve_state_eq e b t s B T). destruct (has_all s); [|auto].
  rewrite seq_eq. unfold prep, read. rewrite D, andb_false_r. cbn [negb].
  assert (K : stable (keeps V) (tail_ e b t s)) by (apply tail_keeps; try reflexivity).
  unfold when at 1. rewrite seq_eq. unfold ret at 1. rewrite seq_eq.
  destruct (negb (o_osc (q_opts s)) && o_int (q_opts s)), (rlt (tr_fin t) (tr_ini t)); unfold when, modify, ret; cbv iota beta;
    match goal with |- context [tail_ e b t s ?s1] => specialize (K s1); unfold keeps in K;
      destruct (tail_ e b t s s1) as [[r s2] e2] end; exact K.
Qed.

Lemma evolve_done_tabs s : done_tabs s -> done_tabs (out_obj (evolve_state e s)).
Proof.
  intro H. destruct (i_done (q_ints s)) eqn:D.
  { destruct (evolve_tabs s D) as [X _]. unfold done_tabs. rewrite X. intros _. exact (H D). }
  destruct (q_body s) as [b|] eqn:B; [|unfold evolve_state, read; rewrite B; exact H].
  destruct (q_track s) as [t|] eqn:T.
  2:{ unfold evolve_state, read. rewrite B, T. destruct (negb _); exact H. }
  rewrite (evolve_state_eq e b t s B T). destruct (has_all s); [|exact H].
  rewrite seq_eq.
  assert (K : stable (keeps (fun s => (i_tabs (q_ints s), i_done (q_ints s)))) (tail_ e b t s)).
  { apply tail_keeps; try reflexivity. }
  assert (P : done_tabs (out_obj (prep e t s))).
  { unfold prep, read. rewrite seq_eq. unfold when at 1. rewrite D. cbn [negb]. rewrite andb_true_r.
    set (m := (when (negb (o_osc (q_opts s)) && o_int (q_opts s)) _ ;; when _ _)%m).
    assert (Z : forall s1, done_tabs s1 -> done_tabs (out_obj (m s1))).
    { unfold m. intros s1 H1. destruct (negb (o_osc (q_opts s)) && o_int (q_opts s)), (rlt (tr_fin t) (tr_ini t)); exact H1. }
    destruct (o_int (q_opts s)).
    - destruct (init_spec s) as (I1 & _ & I3). destruct (init_interactions e s) as [[r s1] e1]. cbn in I1, I3.
      destruct r.
      + specialize (Z s1). destruct (m s1) as [[r2 s2] e2]. apply Z. intros _. apply I1; auto.
      + cbn. intro X. rewrite I3 in X; discriminate.
      + cbn. intro X. rewrite I3 in X; discriminate.
    - unfold ret. specialize (Z s H). destruct (m s) as [[r2 s2] e2]. exact Z. }
  destruct (prep e t s) as [[r s1] e1]. cbn in P. destruct r; [|exact P|exact P].
  specialize (K s1). unfold keeps in K. destruct (tail_ e b t s s1) as [[r s2] e2]. cbn in K |- *.
  injection K as K1 K2. unfold done_tabs. rewrite K1, K2. exact P.
Qed.

Lemma set_done_tabs c s : done_tabs s -> done_tabs (out_obj (exec e (node_call c) s)).
Proof.
  intro H. destruct c; cbn [node_call exec].
  - destruct (set_angle_cases e i j v s) as [->|(_ & _ & _ & ->)]; exact H.
  - destruct (set_phase_cases e i j v s) as [->|(_ & _ & _ & ->)]; exact H.
  - destruct (set_dm_cases e i v s) as [->|(_ & _ & ->)]; exact H.
  - assert (K : stable (keeps q_ints) (set_defaults e)).
    { unfold set_defaults, set_angle, set_dm, set_phase. stab_with (keeps_r _ q_ints) (keeps_t _ q_ints). }
    unfold done_tabs. rewrite (K s). exact H.
  - unfold set_tau, read. destruct (_ && _); [exact H|]. destruct (_ && _); [exact H|]. destruct (_ && _); exact H.
  - unfold set_gr, read. destruct (_ && _); exact H.
  - exact H.
  - exact H.
  - exact H.
  - exact H.
  - destruct b; exact H.
Qed.

(** ** Ensembles *)

Definition all_same (l : list nus) : Prop := forall s s2, In s l -> In s2 l -> same s s2.
Definition nodes_ok (l : list nus) : Prop := Forall node_ok l /\ all_same l.

Lemma on_all_alike m l : alike m -> nodes_ok l ->
  (each (fun _ => m) 0 l = (Done, map (fun s => out_obj (m s)) l) /\ nodes_ok (map (fun s => out_obj (m s)) l)) \/
  (l <> [] /\ each (fun _ => m) 0 l = (Threw, l)).
Proof.
  intros A [N S]. destruct l as [|s0 l].
  { left. split; [reflexivity|]. split; [constructor|intros ? ? []]. }
  pose proof (Forall_inv N) as N0.
  destruct (A s0 s0 N0 N0 (same_refl s0)) as [_ [(R0 & _)|(R0 & O0)]].
  - assert (D : forall s, In s (s0 :: l) -> out_res (m s) = Done).
    { intros s Hs. rewrite Forall_forall in N. destruct (A s0 s N0 (N s Hs) (S s0 s (or_introl eq_refl) Hs)) as [E _]. congruence. }
    left. split; [apply each_done, D|]. rewrite Forall_forall in N. split.
    + apply Forall_forall. intros u Hu. apply in_map_iff in Hu. destruct Hu as (s & <- & Hs).
      destruct (A s s (N s Hs) (N s Hs) (same_refl s)) as [_ [(_ & X & _)|(X & _)]]; [exact X|rewrite (D s Hs) in X; discriminate].
    + intros u u2 Hu Hu2. apply in_map_iff in Hu, Hu2. destruct Hu as (s & <- & Hs). destruct Hu2 as (s2 & <- & Hs2).
      destruct (A s s2 (N s Hs) (N s2 Hs2) (S s s2 Hs Hs2)) as [_ [(_ & _ & X)|(X & _)]]; [exact X|rewrite (D s Hs) in X; discriminate].
  - right. split; [discriminate|]. rewrite each_first by (rewrite R0; discriminate). rewrite R0, O0. reflexivity.
Qed.

Lemma kept_nodes l l' : Forall2 kept l l' -> nodes_ok l -> nodes_ok l'.
Proof.
  intros F [N S]. split.
  - clear S. induction F as [|a b l l' K F IH]; [constructor|].
    inversion N as [|? ? Na Nl]; subst. constructor; [apply K; assumption|auto].
  - assert (B : forall u, In u l' -> exists s, In s l /\ same s u).
    { clear S. induction F as [|a b l l' K F IH]; [intros u []|].
      inversion N as [|? ? Na Nl]; subst. intros u [<-|Hu].
      - exists a. split; [left; reflexivity|]. apply K, Na.
      - destruct (IH Nl u Hu) as (s & Hs & X). exists s. split; [right; exact Hs|exact X]. }
    intros u u2 Hu Hu2. destruct (B u Hu) as (s & Hs & X). destruct (B u2 Hu2) as (s2 & Hs2 & X2).
    eapply same_trans; [apply same_sym, X|]. eapply same_trans; [apply S; eassumption|exact X2].
Qed.

Lemma set_nth_length {A} (l : list A) : forall i v, length (set_nth l i v) = length l.
Proof. induction l as [|x l IH]; intros [|i] v; cbn; auto. Qed.
Lemma set_nth_rel {A} (Q : A -> A -> Prop) (l : list A) : (forall a, Q a a) -> forall i s v, nth_error l i = Some s -> Q s v ->
  Forall2 Q l (set_nth l i v).
Proof.
  intro Qr. assert (X : forall l, Forall2 Q l l) by (induction l0; constructor; auto).
  induction l as [|x l IH]; intros [|i] s v E H; cbn in *; try discriminate.
  - injection E as ->. constructor; auto.
  - constructor; [apply Qr|]. eapply IH; eauto.
Qed.

Lemma share_nodes a : Forall2 kept (a_nodes a) (a_nodes (snd (share_tables e a))).
Proof.
  assert (X : forall l, Forall2 kept l l) by (induction l; constructor; auto using kept_refl).
  unfold share_tables. destruct (a_nodes a) as [|s0 rest] eqn:E; [cbn; rewrite E; constructor|].
  destruct (o_int (q_opts s0)); [|cbn; rewrite E; apply X].
  pose proof (init_int_kept s0) as K0. destruct (init_interactions e s0) as [[r s0'] ev]. cbn in K0.
  destruct r; [|cbn; constructor; auto|cbn; constructor; auto].
  set (f := fun _ : nat => _). pose proof (each_rel kept f kept_refl (fun _ s => share_kept s _) (s0' :: rest) 0) as F.
  destruct (each f 0 (s0' :: rest)) as [r l]. cbn in F |- *.
  inversion F as [|? s1 ? l1 K1 F1]; subst. constructor; [eapply kept_trans; eauto|exact F1].
Qed.

Lemma serial_nodes l : Forall2 kept l (snd (evolve_serial e l)).
Proof. apply each_rel; [apply kept_refl|]. intros. apply evolve_kept. Qed.
Lemma parallel_nodes l : Forall2 kept l (snd (evolve_parallel e l)).
Proof.
  unfold evolve_parallel. cbn. induction l as [|s l IH]; cbn; constructor; [apply evolve_kept|exact IH].
Qed.

Lemma Forall2_trans {A} (Q : A -> A -> Prop) : (forall a b c, Q a b -> Q b c -> Q a c) ->
  forall l1 l2 l3, Forall2 Q l1 l2 -> Forall2 Q l2 l3 -> Forall2 Q l1 l3.
Proof.
  intros T l1 l2 l3 H. revert l3. induction H; intros l3 H3; inversion H3; subst; constructor; eauto.
Qed.

Lemma evolve_nodes a : Forall2 kept (a_nodes a) (a_nodes (snd (a_evolve e a))).
Proof.
  assert (X : forall l, Forall2 kept l l) by (induction l; constructor; auto using kept_refl).
  unfold a_evolve. destruct (a_guard a); [|apply X|apply X].
  pose proof (share_nodes a) as Sh. destruct (share_tables e a) as [r a1]. cbn in Sh.
  destruct r; [|exact Sh|exact Sh]. destruct (a_threads a1) as [k|]; [|exact Sh].
  destruct (Nat.eqb k 1).
  - pose proof (serial_nodes (a_nodes a1)) as F. destruct (evolve_serial e (a_nodes a1)) as [r l]. cbn in *.
    eapply Forall2_trans; [apply kept_trans|exact Sh|exact F].
  - pose proof (parallel_nodes (a_nodes a1)) as F. destruct (evolve_parallel e (a_nodes a1)) as [r l]. cbn in *.
    eapply Forall2_trans; [apply kept_trans|exact Sh|exact F].
Qed.

Definition is_node (c : acall) : bool := match c with ANode _ _ => true | _ => false end.

Lemma fill_nodes f a : (forall j s, kept s (out_obj (f j s))) -> Forall2 kept (a_nodes a) (a_nodes (snd (a_fill f a))).
Proof.
  intro H. unfold a_fill. pose proof (each_rel kept f kept_refl H (a_nodes a) 0) as F.
  destruct (each f 0 (a_nodes a)) as [r l]. destruct r; exact F.
Qed.

Lemma aexec_nodes c a : is_node c = false -> nodes_ok (a_nodes a) -> nodes_ok (a_nodes (snd (aexec e c a))).
Proof.
  intros I N. assert (X : forall l, Forall2 kept l l) by (induction l; constructor; auto using kept_refl).
  assert (O : forall m a, alike m -> nodes_ok (a_nodes a) -> nodes_ok (a_nodes (snd (on_all m a)))).
  { intros m a0 A N0. unfold on_all. destruct (on_all_alike m _ A N0) as [[-> Y]|[_ ->]]; [exact Y|exact N0]. }
  destruct c; try discriminate I; cbn [aexec].
  - apply O; [apply alike_set|exact N].
  - apply O; [apply alike_body|exact N].
  - apply O; [apply alike_xs|exact N].
  - apply O; [apply alike_step|exact N].
  - destruct (nth_error (a_nodes a) idx) as [s|] eqn:E; [|exact N]. cbn.
    apply (kept_nodes (a_nodes a)); [|exact N]. eapply set_nth_rel; [apply kept_refl|exact E|]. apply view_kept; reflexivity.
  - unfold a_init3. destruct (negb _); [exact N|]. destruct (negb _); [exact N|].
    eapply kept_nodes; [|exact N]. apply fill_nodes. intros. apply init2_kept.
  - unfold a_init4. destruct (negb _); [exact N|].
    eapply kept_nodes; [|exact N]. apply fill_nodes. intros. apply init3_kept.
  - eapply kept_nodes; [|exact N]. apply evolve_nodes.
  - exact N.
Qed.

(** ** New ensembles *)

Lemma move_kept s : o_const (q_opts s) = false -> o_src (q_opts s) = false -> kept s (move_ctor s).
Proof.
  intros C O. apply view_kept; [|reflexivity]. unfold settings, switches. cbn. rewrite C, O. reflexivity.
Qed.

(** a new node of a constructed ensemble, moved or not *)
Definition new_node (s0 : nus) (s : nus) : Prop :=
  node_ok s /\ same s0 s /\ o_const (q_opts s) = false /\ o_src (q_opts s) = false /\
  i_ncs (q_ints s) = i_ncs (q_ints s0) /\ i_tabs (q_ints s) = None /\ i_done (q_ints s) = false /\ f_state (q_flags s) = false.

Lemma make_nodes_ok track_of grow earth E numneu t iint x : forall cos i acc r l,
  make_nodes e track_of grow earth E numneu t iint x i cos acc = (r, l) -> r = Done ->
  forall s0, make_multi e E numneu t iint x = (Done, s0, []) -> Forall (new_node (set_q_body (Some earth) s0)) acc ->
  Forall (new_node (set_q_body (Some earth) s0)) l /\ length l = (length acc + length cos)%nat.
Proof.
  induction cos as [|c cos IH]; intros i acc r l H Rd s0 Hm Ha; cbn [make_nodes] in H.
  - injection H as <- <-. split; [exact Ha|]. cbn. lia.
  - rewrite Hm in H. unfold set_body, set_track, seq_, modify in H. cbv iota beta in H. destruct (make_nodes _ _ _ _ _ _ _ _ _ _ _ _) as [r1 l1] eqn:Hr in H.
    injection H as -> ->.
    assert (Q : (3 <= numneu)%nat /\ (numneu <= e_maxdim e)%nat /\ E <> []).
    { unfold make_multi in Hm. cbv zeta in Hm. destruct (Nat.ltb_spec (e_maxdim e) numneu); [discriminate|].
      destruct (Nat.ltb_spec numneu 3); [discriminate|]. destruct E; [discriminate|]. repeat split; [lia|lia|discriminate]. }
    destruct Q as (Q1 & Q2 & Q3). destruct (make_multi_ok e E numneu t iint x Q1 Q2 Q3) as (s1 & Hm1 & Re).
    rewrite Hm in Hm1. injection Hm1 as <-. unfold rest in Re.
    injection Re as R1 R2 R3 R4 R5 R6 R7 R8 R9 R10 R11 R12 R13 R14 R15 R16.
    set (sn := put_f_track true _) in Hr.
    assert (Nn : new_node (set_q_body (Some earth) s0) sn).
    { unfold new_node, sn. cbn. rewrite R7, R8. cbn. repeat apply conj; auto.
      - constructor; cbn; try congruence; try lia.
      - constructor; cbn; auto.
      - exact (nw_state _ _ _ (made_spec e _ _ (made_multi e _ _ _ _ _ _ _ Hm))). }
    destruct (IH _ _ _ _ Hr Rd s0 Hm) as [F L].
    + apply Forall_app. split; [|constructor; [exact Nn|constructor]].
      destruct (grow i); [|exact Ha]. apply Forall_forall. intros u Hu. apply in_map_iff in Hu. destruct Hu as (s & <- & Hs).
      rewrite Forall_forall in Ha. destruct (Ha s Hs) as (H1 & H2 & H3 & H4 & H5 & H6 & H7 & H8).
      destruct (move_kept s H3 H4 H1) as [K1 K2]. unfold new_node. repeat apply conj; auto.
      eapply same_trans; eauto.
    + split; [exact F|]. rewrite L, app_length. cbn. destruct (grow i); rewrite ?map_length; lia.
Qed.

Lemma made_ok a : made_atm e a ->
  nodes_ok (a_nodes a) /\ length (a_nodes a) = length (a_cos a) /\ a_nodes a <> [] /\ a_threads a = Some 1%nat /\
  a_made a = true /\ a_ini a = None /\
  (forall s, In s (a_nodes a) -> q_body s = a_earth a /\ i_ncs (q_ints s) = a_ncs a /\ q_E s = a_E a /\
     i_tabs (q_ints s) = None /\ i_done (q_ints s) = false /\ f_state (q_flags s) = false).
Proof.
  intros [track_of grow earth cos E numneu t iint x a' H]. unfold make_atm in H.
  destruct (make_nodes _ _ _ _ _ _ _ _ _ _ _ _) as [r l] eqn:Hn. destruct r; try discriminate.
  destruct l as [|s1 l]; [discriminate|]. injection H as <-. cbn.
  assert (Hs : exists s0, make_multi e E numneu t iint x = (Done, s0, [])).
  { destruct cos as [|c cos]; [discriminate|]. cbn [make_nodes] in Hn.
    destruct (make_multi e E numneu t iint x) as [[r s0] ev] eqn:Hm in Hn. destruct r; try discriminate.
    unfold make_multi in Hm. cbv zeta in Hm. destruct (Nat.ltb_spec (e_maxdim e) numneu); [discriminate|].
    destruct (Nat.ltb_spec numneu 3); [discriminate|]. destruct E as [|x0 E]; [discriminate|].
    destruct (make_multi_ok e (x0 :: E) numneu t iint x ltac:(lia) ltac:(lia) ltac:(discriminate)) as (s2 & Hm2 & _). eauto. }
  destruct Hs as [s0 Hm].
  destruct (make_nodes_ok _ _ _ _ _ _ _ _ _ _ _ _ _ Hn eq_refl s0 Hm (Forall_nil _)) as [F L].
  rewrite Forall_forall in F.
  assert (S0 : forall s, In s (s1 :: l) -> same (set_q_body (Some earth) s0) s) by (intros s Hs; apply (F s Hs)).
  split; [split|].
  - apply Forall_forall. intros s Hs. apply (F s Hs).
  - intros s s2 Hs Hs2. eapply same_trans; [apply same_sym, S0, Hs|apply S0, Hs2].
  - split; [cbn in L; lia|]. split; [discriminate|]. split; [reflexivity|]. split; [reflexivity|]. split; [reflexivity|].
    intros s Hs. destruct (F s Hs) as (_ & S & _ & _ & X & T & D & St).
    destruct (F s1 (or_introl eq_refl)) as (_ & S1 & _ & _ & X1 & _).
    repeat apply conj; auto; try congruence.
    + rewrite <- (sm_body _ _ S). reflexivity.
    + rewrite <- (sm_E _ _ S), <- (sm_E _ _ S1). reflexivity.
Qed.

End Atm.

(** * Loops in general *)

Lemma each_all (P : nus -> nus -> Prop) : forall l f i l', each f i l = (Done, l') ->
  (forall j s s' ev, In s l -> f j s = (Done, s', ev) -> P s s') -> Forall2 P l l'.
Proof.
  induction l as [|s l IH]; intros f i l' H HP; cbn [each] in H; [injection H as <-; constructor|].
  destruct (f i s) as [[r s'] ev] eqn:F. destruct r; try discriminate.
  destruct (each f (S i) l) as [r l2] eqn:E. injection H as -> <-.
  constructor; [eapply HP; [left; reflexivity|exact F]|]. apply (IH f (S i)); [exact E|].
  intros j u u' ev' Hu. apply HP. right. exact Hu.
Qed.

Lemma each_done_at (P : nus -> Prop) : forall l f i, (forall j s, In s l -> out_res (f j s) = Done) ->
  (forall j s, In s l -> P (out_obj (f j s))) -> fst (each f i l) = Done /\ Forall P (snd (each f i l)).
Proof.
  induction l as [|s l IH]; intros f i H1 H2; cbn [each]; [split; [reflexivity|constructor]|].
  pose proof (H1 i s (or_introl eq_refl)) as R0. pose proof (H2 i s (or_introl eq_refl)) as Q.
  destruct (f i s) as [[r s'] ev]. cbn in R0, Q. subst r.
  destruct (IH f (S i)) as [A B]; [intros; apply H1; right; assumption|intros; apply H2; right; assumption|].
  destruct (each f (S i) l) as [r l2]. cbn in *. subst r. auto.
Qed.

Section Fill.
Variable e : env.

(** a node whose state was just set *)
Definition fresh_state (s : nus) : Prop := f_state (q_flags s) = true /\ exists t, q_track s = Some t /\ q_offset s = Some 0 /\
  q_x s = tr_ini t /\ sq_t (q_sq s) = tr_ini t.

Lemma filled_state d1 d2 v b s : node_ok e s -> out_res (init_state2 e d1 d2 v b s) = Done ->
  fresh_state (out_obj (init_state2 e d1 d2 v b s)).
Proof.
  intro N. unfold init_state2, read. rewrite checks_eq. destruct (existsb _ _); [discriminate|].
  destruct (q_track s) as [t|] eqn:T; [|exfalso; exact (no_path _ _ N T)].
  destruct (fill_state_eq e (fun i _ j => v i j) b s t (no_max _ _ N) T (no_energy _ _ N)) as (s' & -> & S & _).
  intros _. split; [cbn; rewrite (ss_flags _ _ _ _ S); reflexivity|]. exists t. repeat apply conj; apply S.
Qed.
Lemma filled_state3 d1 d2 d3 v b s : node_ok e s -> out_res (init_state3 e d1 d2 d3 v b s) = Done ->
  fresh_state (out_obj (init_state3 e d1 d2 d3 v b s)).
Proof.
  intro N. unfold init_state3, read. rewrite checks_eq. destruct (existsb _ _); [discriminate|].
  destruct (q_track s) as [t|] eqn:T; [|exfalso; exact (no_path _ _ N T)].
  destruct (fill_state_eq e v b s t (no_max _ _ N) T (no_energy _ _ N)) as (s' & -> & S & _).
  intros _. split; [cbn; rewrite (ss_flags _ _ _ _ S); reflexivity|]. exists t. repeat apply conj; apply S.
Qed.

(** filling is all or nothing *)
Lemma fill_uniform (f : nat -> M) a : a_nodes a <> [] ->
  (forall s s2, In s (a_nodes a) -> In s2 (a_nodes a) -> forall j j2, out_res (f j s) = out_res (f j2 s2) /\
     (out_res (f j s) = Done \/ f j s = (Threw, s, []))) ->
  (forall j s, In s (a_nodes a) -> out_res (f j s) = Done -> fresh_state (out_obj (f j s))) ->
  (exists l, a_fill f a = (Done, with_ini true (with_nodes l a)) /\ Forall fresh_state l) \/ a_fill f a = (Threw, a).
Proof.
  intros Hne HU HF. unfold a_fill. destruct (a_nodes a) as [|s0 l] eqn:En; [congruence|].
  destruct (HU s0 s0 (or_introl eq_refl) (or_introl eq_refl) 0%nat 0%nat) as [_ [D|T]].
  - left. destruct (each_done_at fresh_state (s0 :: l) f 0) as [A B].
    + intros j s Hs. destruct (HU s s0 Hs (or_introl eq_refl) j 0%nat) as [X _]. rewrite X. exact D.
    + intros j s Hs. apply HF; [exact Hs|]. destruct (HU s s0 Hs (or_introl eq_refl) j 0%nat) as [X _]. rewrite X. exact D.
    + destruct (each f 0 (s0 :: l)) as [r l2]. cbn in A, B. subst r. exists l2. auto.
  - right. rewrite each_first by (rewrite T; discriminate). rewrite T. cbn. rewrite <- En. destruct a; reflexivity.
Qed.

Lemma init_all_or_nothing3 d0 d1 d2 v b a : nodes_ok e (a_nodes a) -> a_nodes a <> [] ->
  (exists l, a_init3 e d0 d1 d2 v b a = (Done, with_ini true (with_nodes l a)) /\ Forall fresh_state l) \/
  a_init3 e d0 d1 d2 v b a = (Threw, a).
Proof.
  intros [N S] Hne. unfold a_init3. destruct (negb _); [auto|]. destruct (negb _); [auto|]. rewrite Forall_forall in N.
  apply fill_uniform; [exact Hne| |].
  - intros s s2 Hs Hs2 j j2. apply init2_cases; auto.
  - intros j s Hs. apply filled_state. auto.
Qed.
Lemma init_all_or_nothing4 d0 d1 d2 d3 v b a : nodes_ok e (a_nodes a) -> a_nodes a <> [] ->
  (exists l, a_init4 e d0 d1 d2 d3 v b a = (Done, with_ini true (with_nodes l a)) /\ Forall fresh_state l) \/
  a_init4 e d0 d1 d2 d3 v b a = (Threw, a).
Proof.
  intros [N S] Hne. unfold a_init4. destruct (negb _); [auto|]. rewrite Forall_forall in N.
  apply fill_uniform; [exact Hne| |].
  - intros s s2 Hs Hs2 j j2. apply init3_cases; auto.
  - intros j s Hs. apply filled_state3. auto.
Qed.

(** ** Histories *)

Lemma with_nodes_eq a : with_nodes (a_nodes a) a = a. Proof. destruct a; reflexivity. Qed.

Lemma each_length f : forall l i, length (snd (each f i l)) = length l.
Proof.
  induction l as [|s l IH]; intro i; cbn [each]; [reflexivity|]. destruct (f i s) as [[r s'] ev].
  destruct r; [|reflexivity|reflexivity]. specialize (IH (S i)). destruct (each f (S i) l). cbn in *. congruence.
Qed.

(** what no call changes *)
Definition frame_of (a : atm) := (a_made a, a_cos a, a_E a, length (a_nodes a)).
Lemma aexec_frame c a : frame_of (snd (aexec e c a)) = frame_of a.
Proof.
  assert (O : forall m a, frame_of (snd (on_all m a)) = frame_of a).
  { intros m a0. unfold on_all. pose proof (each_length (fun _ => m) (a_nodes a0) 0) as L. destruct (each _ 0 _) as [r l].
    unfold frame_of. cbn in *. congruence. }
  assert (Fl : forall f a, frame_of (snd (a_fill f a)) = frame_of a).
  { intros f a0. unfold a_fill. pose proof (each_length f (a_nodes a0) 0) as L. destruct (each f 0 _) as [r l].
    destruct r; unfold frame_of; cbn in *; congruence. }
  destruct c; cbn [aexec].
  - apply O.
  - rewrite O. reflexivity.
  - rewrite O. reflexivity.
  - apply O.
  - destruct (nth_error (a_nodes a) idx); [|reflexivity]. unfold frame_of. cbn. rewrite set_nth_length. reflexivity.
  - unfold a_init3. destruct (negb _); [reflexivity|]. destruct (negb _); [reflexivity|]. apply Fl.
  - unfold a_init4. destruct (negb _); [reflexivity|]. apply Fl.
  - unfold a_evolve. destruct (a_guard a); try reflexivity.
    assert (Sh : frame_of (snd (share_tables e a)) = frame_of a).
    { unfold share_tables. destruct (a_nodes a) as [|s0 rest] eqn:En; [reflexivity|].
      destruct (o_int (q_opts s0)); [|reflexivity]. destruct (init_interactions e s0) as [[r s0'] ev].
      destruct r; [|unfold frame_of; cbn; rewrite En; reflexivity|unfold frame_of; cbn; rewrite En; reflexivity].
      pose proof (each_length (fun _ => (modify (put_i_tabs (i_tabs (q_ints s0'))) ;; init_interactions e)%m) (s0' :: rest) 0) as L.
      destruct (each _ 0 (s0' :: rest)) as [r l]. unfold frame_of. cbn in *. rewrite En. cbn. congruence. }
    destruct (share_tables e a) as [r a1]. cbn in Sh. destruct r; try exact Sh. destruct (a_threads a1) as [k|]; [|exact Sh].
    assert (L : length (snd (if Nat.eqb k 1 then evolve_serial e (a_nodes a1) else evolve_parallel e (a_nodes a1))) = length (a_nodes a1)).
    { destruct (Nat.eqb k 1); [apply each_length|]. unfold evolve_parallel. cbn. rewrite !map_length. reflexivity. }
    destruct (if Nat.eqb k 1 then _ else _) as [r l]. cbn in L. rewrite <- Sh. unfold frame_of. cbn. congruence.
  - reflexivity.
  - destruct (nth_error (a_nodes a) i); [|reflexivity]. destruct (exec e c n) as [[r s'] ev]. unfold frame_of. cbn.
    rewrite set_nth_length. reflexivity.
Qed.

Definition by_ensemble (h : list (acall * res)) : Prop := forall c r, In (c, r) h -> is_node c = false.

Lemma hist_nodes a0 h a : made_atm e a0 -> ahist e a0 h a -> by_ensemble h -> nodes_ok e (a_nodes a) /\ a_nodes a <> [] /\
  length (a_nodes a) = length (a_cos a) /\ a_made a = true.
Proof.
  intros Mk H B. assert (Fr : frame_of a = frame_of a0).
  { clear B. induction H as [|h a c r a' H IH E U]; [reflexivity|]. rewrite <- IH, <- (aexec_frame c a), E. reflexivity. }
  destruct (made_ok e a0 Mk) as (N0 & L0 & Ne0 & _ & M0 & _).
  split; [|unfold frame_of in Fr; injection Fr as F1 F2 F3 F4; repeat apply conj;
    [intro Z; rewrite Z in F4; destruct (a_nodes a0); [congruence|discriminate]|congruence|congruence]].
  clear Fr. induction H as [|h a c r a' H IH E U]; [exact N0|].
  assert (Ih : nodes_ok e (a_nodes a)) by (apply IH; intros c' r' H'; apply (B c' r'); right; exact H').
  pose proof (aexec_nodes e c a (B c r (or_introl eq_refl)) Ih) as X. rewrite E in X. exact X.
Qed.

Lemma aexec_threads c a : a_threads (snd (aexec e c a)) = match c with AThreads k hw => Some (threads_for k hw) | _ => a_threads a end.
Proof.
  assert (O : forall m a, a_threads (snd (on_all m a)) = a_threads a).
  { intros m a0. unfold on_all. destruct (each _ 0 _) as [r l]. reflexivity. }
  assert (Fl : forall f a, a_threads (snd (a_fill f a)) = a_threads a).
  { intros f a0. unfold a_fill. destruct (each f 0 _) as [r l]. destruct r; reflexivity. }
  destruct c; cbn [aexec]; rewrite ?O; try reflexivity.
  - destruct (nth_error (a_nodes a) idx); reflexivity.
  - unfold a_init3. destruct (negb _); [reflexivity|]. destruct (negb _); [reflexivity|]. apply Fl.
  - unfold a_init4. destruct (negb _); [reflexivity|]. apply Fl.
  - unfold a_evolve. destruct (a_guard a); try reflexivity.
    assert (Sh : a_threads (snd (share_tables e a)) = a_threads a).
    { unfold share_tables. destruct (a_nodes a) as [|s0 rest] eqn:En; [reflexivity|].
      destruct (o_int (q_opts s0)); [|reflexivity]. destruct (init_interactions e s0) as [[r s0'] ev].
      destruct r; try reflexivity. destruct (each _ 0 (s0' :: rest)) as [r l]. reflexivity. }
    destruct (share_tables e a) as [r a1]. cbn in Sh. destruct r; try exact Sh. destruct (a_threads a1) as [k|] eqn:K; [|exact (eq_trans K Sh)].
    destruct (if Nat.eqb k 1 then _ else _) as [r l]. cbn. congruence.
  - destruct (nth_error (a_nodes a) i); [|reflexivity]. destruct (exec e c n) as [[r s'] ev]. reflexivity.
Qed.

(** ** Tables *)

Lemma share_but_ints a : Forall2 (fun s s' => but_ints s' = but_ints s) (a_nodes a) (a_nodes (snd (share_tables e a))).
Proof.
  assert (X : forall l : list nus, Forall2 (fun s s' => but_ints s' = but_ints s) l l) by (induction l; constructor; auto).
  unfold share_tables. destruct (a_nodes a) as [|s0 rest] eqn:E; [cbn; rewrite E; constructor|].
  destruct (o_int (q_opts s0)); [|cbn; rewrite E; apply X].
  pose proof (init_but_ints e s0) as K0. unfold keeps in K0. destruct (init_interactions e s0) as [[r s0'] ev]. cbn in K0.
  destruct r; [|cbn; constructor; auto|cbn; constructor; auto].
  assert (F : Forall2 (fun s s' => but_ints s' = but_ints s) (s0' :: rest)
     (snd (each (fun _ => (modify (put_i_tabs (i_tabs (q_ints s0'))) ;; init_interactions e)%m) 0 (s0' :: rest)))).
  { apply each_rel; [reflexivity|]. intros j s. rewrite seq_eq. unfold modify.
    pose proof (init_but_ints e (put_i_tabs (i_tabs (q_ints s0')) s)) as K. unfold keeps in K.
    destruct (init_interactions e (put_i_tabs (i_tabs (q_ints s0')) s)) as [[r s'] ev']. cbn in K. cbn. rewrite K. reflexivity. }
  destruct (each _ 0 (s0' :: rest)) as [r l]. cbn [snd with_tabs with_nodes a_nodes] in *.
  inversion F as [|? y ? l2 Hy Hl]; subst. constructor; [congruence|exact Hl].
Qed.

(** after the tables were shared out, every node has them *)
Definition holds (t : option tabs) (s : nus) : Prop := i_tabs (q_ints s) = t /\ i_done (q_ints s) = true.

Lemma share_holds a a1 s0 rest : a_nodes a = s0 :: rest -> o_int (q_opts s0) = true -> done_tabs s0 -> share_tables e a = (Done, a1) ->
  a_tabs a1 <> None /\ Forall (holds (a_tabs a1)) (a_nodes a1).
Proof.
  intros En OI DT. unfold share_tables. rewrite En, OI.
  destruct (init_spec e s0) as (S1 & _ & _). destruct (init_interactions e s0) as [[r s0'] ev]. cbn in S1.
  destruct r; try discriminate. destruct (S1 eq_refl DT) as [D0 T0].
  destruct (each _ 0 (s0' :: rest)) as [r l] eqn:Ee. intro H. injection H as -> <-. cbn. split; [exact T0|].
  pose proof (each_all (fun _ s' => holds (i_tabs (q_ints s0')) s') _ _ _ _ Ee) as F.
  assert (F2 : Forall2 (fun _ s' => holds (i_tabs (q_ints s0')) s') (s0' :: rest) l).
  { apply F. intros j s s' ev' _. rewrite seq_eq. unfold modify.
    destruct (init_spec e (put_i_tabs (i_tabs (q_ints s0')) s)) as (A & B & _).
    destruct (init_interactions e (put_i_tabs (i_tabs (q_ints s0')) s)) as [[r s2] e2]. cbn in A, B. cbn.
    intro H. injection H as -> <- _. split; [apply B; exact T0|]. apply A; [reflexivity|]. intros _. exact T0. }
  clear -F2. induction F2; constructor; auto.
Qed.

Lemma evolve_holds t l : Forall (holds t) l ->
  Forall (holds t) (snd (evolve_serial e l)) /\ Forall (holds t) (snd (evolve_parallel e l)).
Proof.
  intro F. split.
  - unfold evolve_serial. generalize 0%nat. induction l as [|s l IH]; intro i; cbn [each]; [constructor|].
    inversion F as [|? ? Hs Hl]; subst. destruct Hs as [H1 H2]. destruct (evolve_tabs e s H2) as [A B].
    destruct (evolve_state e s) as [[r s'] ev]. cbn in A, B. specialize (IH Hl (S i)).
    destruct r; [destruct (each _ (S i) l) as [r l2]; cbn in *|..]; constructor; auto; split; congruence.
  - unfold evolve_parallel. cbn. induction F as [|s l [H1 H2] F IH]; cbn; constructor; auto.
    destruct (evolve_tabs e s H2) as [A B]. split; [rewrite <- H1; exact A|exact B].
Qed.

Lemma done_tabs_share t s : t <> None -> done_tabs (out_obj ((modify (put_i_tabs t) ;; init_interactions e)%m s)).
Proof.
  intro T. rewrite seq_eq. unfold modify. destruct (init_spec e (put_i_tabs t s)) as (_ & B & _).
  destruct (init_interactions e (put_i_tabs t s)) as [[r s'] ev]. cbn in *. intros _. rewrite (B T). exact T.
Qed.

Lemma init_done_tabs s : done_tabs s -> done_tabs (out_obj (init_interactions e s)).
Proof.
  intro H. destruct (init_spec e s) as (A & B & C). destruct (init_interactions e s) as [[r s'] ev]. cbn in *.
  intro D. destruct r; [apply (proj2 (A eq_refl H))|rewrite C in D; [discriminate|discriminate]|rewrite C in D; [discriminate|discriminate]].
Qed.

Lemma each_forall (P : nus -> Prop) (m : nat -> M) : (forall j s, P s -> P (out_obj (m j s))) -> forall l i, Forall P l ->
  Forall P (snd (each m i l)).
Proof.
  intro H. induction l as [|s l IH]; intros i F; cbn [each]; [constructor|]. inversion F as [|? ? Hs Hl]; subst.
  pose proof (H i s Hs) as Hs'. destruct (m i s) as [[r s'] ev]. cbn in Hs'.
  destruct r; [specialize (IH (S i) Hl); destruct (each m (S i) l)|..]; cbn in *; constructor; auto.
Qed.

Lemma fill_ints v b s : q_ints (out_obj (fill_state e v b s)) = q_ints s.
Proof.
  assert (K : stable (keeps q_ints) (fill_state e v b)); [|exact (K s)].
  unfold fill_state, set_projectors, ini_h0, rotate, cp_fix, flip_phases, set_phase. stab_with (keeps_r _ q_ints) (keeps_t _ q_ints).
Qed.

Lemma aexec_done_tabs c a : is_node c = false -> Forall done_tabs (a_nodes a) -> Forall done_tabs (a_nodes (snd (aexec e c a))).
Proof.
  intros I F.
  assert (O : forall m a, (forall s, done_tabs s -> done_tabs (out_obj (m s))) -> Forall done_tabs (a_nodes a) ->
    Forall done_tabs (a_nodes (snd (on_all m a)))).
  { intros m a0 H F0. unfold on_all. pose proof (each_forall done_tabs (fun _ => m) (fun _ s => H s) _ 0 F0) as X.
    destruct (each _ 0 _) as [r l]. exact X. }
  assert (Fl : forall f a, (forall j s, done_tabs s -> done_tabs (out_obj (f j s))) -> Forall done_tabs (a_nodes a) ->
    Forall done_tabs (a_nodes (snd (a_fill f a)))).
  { intros f a0 H F0. unfold a_fill. pose proof (each_forall done_tabs f H _ 0 F0) as X.
    destruct (each f 0 _) as [r l]. destruct r; exact X. }
  destruct c; try discriminate I; cbn [aexec].
  - apply O; [|exact F]. intros s. apply set_done_tabs.
  - apply O; [|exact F]. intros s H. exact H.
  - apply O; [|exact F]. intros s H. unfold done_tabs. cbn. discriminate.
  - apply O; [|exact F]. intros s H. exact H.
  - destruct (nth_error (a_nodes a) idx) as [s|] eqn:E; [|exact F]. cbn.
    revert idx E I. induction F as [|x l Hx F IH]; intros [|i] E I; cbn in *; try discriminate.
    + injection E as ->. constructor; [exact Hx|exact F].
    + constructor; [exact Hx|]. exact (IH i E I).
  - unfold a_init3. destruct (negb _); [exact F|]. destruct (negb _); [exact F|]. apply Fl; [|exact F].
    intros j s H. unfold init_state2, read. rewrite checks_eq. destruct (existsb _ _); [exact H|].
    unfold done_tabs. rewrite fill_ints. exact H.
  - unfold a_init4. destruct (negb _); [exact F|]. apply Fl; [|exact F].
    intros j s H. unfold init_state3, read. rewrite checks_eq. destruct (existsb _ _); [exact H|].
    unfold done_tabs. rewrite fill_ints. exact H.
  - unfold a_evolve. destruct (a_guard a); try exact F.
    assert (Sh : Forall done_tabs (a_nodes (snd (share_tables e a)))).
    { unfold share_tables. destruct (a_nodes a) as [|s0 rest] eqn:En; [cbn; rewrite En; exact F|].
      destruct (o_int (q_opts s0)); [|cbn; rewrite En; exact F]. inversion F as [|? ? F0 Fr]; subst.
      destruct (init_spec e s0) as (A & _ & _). pose proof (init_done_tabs s0 F0) as D0.
      destruct (init_interactions e s0) as [[r s0'] ev]. cbn in A, D0.
      destruct r; [|cbn; constructor; assumption|cbn; constructor; assumption]. destruct (A eq_refl F0) as [_ T0].
      pose proof (each_forall done_tabs (fun _ => (modify (put_i_tabs (i_tabs (q_ints s0'))) ;; init_interactions e)%m)
        (fun _ s _ => done_tabs_share _ s T0) (s0' :: rest) 0 ltac:(constructor; assumption)) as X.
      destruct (each _ 0 (s0' :: rest)) as [r l]. exact X. }
    destruct (share_tables e a) as [r a1]. cbn in Sh. destruct r; try exact Sh. destruct (a_threads a1) as [k|]; [|exact Sh].
    assert (Y : Forall done_tabs (snd (if Nat.eqb k 1 then evolve_serial e (a_nodes a1) else evolve_parallel e (a_nodes a1)))).
    { destruct (Nat.eqb k 1).
      - apply each_forall; [|exact Sh]. intros _ s. apply evolve_done_tabs.
      - unfold evolve_parallel. cbn. clear -Sh. induction Sh as [|s l H Sh IH]; cbn; constructor; auto.
        exact (evolve_done_tabs e s H). }
    destruct (if Nat.eqb k 1 then _ else _) as [r l]. exact Y.
  - exact F.
Qed.

Lemma hist_done_tabs a0 h a : made_atm e a0 -> ahist e a0 h a -> by_ensemble h -> Forall done_tabs (a_nodes a).
Proof.
  intros Mk H B. induction H as [|h a c r a' H IH E U].
  - destruct (made_ok e a0 Mk) as (_ & _ & _ & _ & _ & _ & X). apply Forall_forall. intros s Hs.
    destruct (X s Hs) as (_ & _ & _ & _ & D & _). intro D2. congruence.
  - pose proof (aexec_done_tabs c a (B c r (or_introl eq_refl))) as X. rewrite E in X. apply X. apply IH.
    intros c' r' H'. apply (B c' r'). right. exact H'.
Qed.

End Fill.
