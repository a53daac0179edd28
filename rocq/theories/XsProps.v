(** C31, C32, C34: cross-section lookups and the library of cross sections. *)
From Coq Require Import List Arith ZArith Reals Lra Lia Bool.
From Verif Require Import Err AkimaModel BicubicModel TauModel XsModel AkimaBicubicProps XsProofs.
Import ListNotations.
Local Open Scope R_scope.

(** The tables V1 expects: at least two energies, equally spaced in the logarithm, the range being that of the energies. *)
Definition log_uniform (GeV : R) (T : v1) (d : R) : Prop :=
  0 < d /\ (2 <= v_n T)%nat /\ 0 < GeV /\ (forall i, (i < v_n T)%nat -> v_l T i = v_l T 0%nat + INR i * d) /\
  v_Emin T = GeV * exp (v_l T 0%nat) /\ v_Emax T = GeV * exp (v_l T (v_n T - 1)%nat).

(** ** C31 *)
(** Below the top of the range the total cross section is read from a cell of the table that holds the energy, on the chord of the cell. *)
Theorem c31_total_partial : forall GeV tiny T d E f t c, log_uniform GeV T d -> f <> sterile -> v_Emin T <= E < v_Emax T ->
  exists i v, (S i < v_n T)%nat /\ v_l T i <= ln (E / GeV) < v_l T (S i) /\ v1_total GeV tiny T E f t c = Ok v /\
    (v_l T (S i) - v_l T i) * v = (v_l T (S i) - ln (E / GeV)) * v_s T (is_cc c) t f i + (ln (E / GeV) - v_l T i) * v_s T (is_cc c) t f (S i).
Proof.
  intros GeV tiny T d E f t c (dpos & n2 & Gp & grid & lo & hi) F [A B].
  assert (EP : 0 < E) by (pose proof (Emin_pos GeV T Gp lo); lra).
  pose proof (log_lo GeV T Gp lo E A) as LA. pose proof (log_hi GeV T Gp hi E EP B) as LB.
  destruct (cell T d dpos n2 grid (ln (E / GeV)) (conj LA LB)) as (i & I & C & Z).
  exists i, (lin_inter (ln (E / GeV)) (v_l T i) (v_l T (S i)) (v_s T (is_cc c) t f i) (v_s T (is_cc c) t f (S i))).
  split; [exact I | split; [exact C | split]].
  - unfold v1_total. rewrite total_checks_in by (assumption || lra). unfold v1_core; cbv zeta.
    rewrite (at1_ok _ _ 1), (at1_ok _ _ 0) by lia. cbn [obind]. rewrite (step1 T d n2 grid), Z. cbn [obind].
    rewrite (proj2 (Nat.eqb_neq i (v_n T))) by lia.
    rewrite !at1_ok by lia. reflexivity.
  - apply lin_chord. pose proof (cell_step T d n2 grid i I). lra.
Qed.
Print Assumptions c31_total_partial.
Theorem c31_total_nodes : forall GeV tiny T d f t c i, log_uniform GeV T d -> f <> sterile -> (S i < v_n T)%nat ->
  v1_total GeV tiny T (GeV * exp (v_l T i)) f t c = Ok (v_s T (is_cc c) t f i).
Proof.
  intros GeV tiny T d f t c i H F I.
  pose proof H as (dpos & n2 & Gp & grid & lo & hi).
  assert (LN : ln (GeV * exp (v_l T i) / GeV) = v_l T i).
  { replace (GeV * exp (v_l T i) / GeV) with (exp (v_l T i)) by (field; lra). apply ln_exp. }
  assert (M0 : v_l T 0%nat <= v_l T i). { rewrite (grid i) by lia. pose proof (pos_INR i). nra. }
  assert (M1 : v_l T i < v_l T (v_n T - 1)%nat).
  { rewrite (grid i), (grid (v_n T - 1)%nat) by lia. assert (INR i < INR (v_n T - 1)) by (apply lt_INR; lia). nra. }
  unfold v1_total. rewrite total_checks_in; [|assumption| |].
  - unfold v1_core; cbv zeta. rewrite LN, (at1_ok _ _ 1), (at1_ok _ _ 0) by lia. cbn [obind].
    rewrite (step1 T d n2 grid), (cell_node T d dpos grid i) by lia. cbn [obind].
    rewrite (proj2 (Nat.eqb_neq i (v_n T))) by lia. rewrite !at1_ok by lia. cbn [obind].
    f_equal. unfold lin_inter. pose proof (cell_step T d n2 grid i I). field. lra.
  - rewrite lo. apply Rmult_le_compat_l; [lra|]. destruct M0 as [M0|M0]; [left; apply exp_increasing; exact M0 | rewrite M0; lra].
  - rewrite hi. apply Rmult_le_compat_l; [lra|]. left; apply exp_increasing; exact M1.
Qed.
Print Assumptions c31_total_nodes.
(** The upper end of the range passes the check but is read beyond the table. *)
Theorem c31_total_top_refuted : forall GeV tiny T d f t c, log_uniform GeV T d -> f <> sterile -> v1_total GeV tiny T (v_Emax T) f t c = UB.
Proof.
  intros GeV tiny T d f t c (dpos & n2 & Gp & grid & lo & hi) F.
  unfold v1_total. rewrite total_checks_in; [|assumption| |lra].
  - unfold v1_core; cbv zeta. rewrite hi.
    replace (ln (GeV * exp (v_l T (v_n T - 1)%nat) / GeV)) with (v_l T (v_n T - 1)%nat)
      by (replace (GeV * exp (v_l T (v_n T - 1)%nat) / GeV) with (exp (v_l T (v_n T - 1)%nat)) by (field; lra); rewrite ln_exp; reflexivity).
    rewrite (at1_ok _ _ 1), (at1_ok _ _ 0) by lia. cbn [obind]. rewrite (step1 T d n2 grid), (cell_node T d dpos grid (v_n T - 1)%nat) by lia. cbn [obind].
    rewrite (proj2 (Nat.eqb_neq (v_n T - 1) (v_n T))) by lia. rewrite (at1_ok _ _ (v_n T - 1)) by lia. cbn [obind].
    rewrite at1_out by lia. reflexivity.
  - rewrite lo, hi. apply Rmult_le_compat_l; [lra|]. left; apply exp_increasing. rewrite (grid (v_n T - 1)%nat) by lia.
    assert (0 < INR (v_n T - 1)) by (apply (lt_INR 0); lia). nra.
Qed.
Print Assumptions c31_total_top_refuted.

(** The differential cross section, both ends of the range of E1 included, for E2 in the range: inside the table and between its values. *)
Theorem c31_single_inside : forall GeV tiny T d E1 E2 f t c a b, log_uniform GeV T d -> f <> sterile -> c = CC \/ c = NC ->
  v_Emin T <= E1 <= v_Emax T -> v_Emin T <= E2 < E1 ->
  (forall i j, (i < v_n T)%nat -> (j < v_n T)%nat -> a <= v_d T (is_cc c) t f i j <= b) ->
  exists v, v1_single GeV tiny T E1 E2 f t c = Ok v /\ a <= v <= b.
Proof.
  intros GeV tiny T d E1 E2 f t c a b (dpos & n2 & Gp & grid & lo & hi) F CN [A B] [A2 B2] BD.
  assert (EP : 0 < E2) by (pose proof (Emin_pos GeV T Gp lo); lra).
  pose proof (log_lo GeV T Gp lo E1 A) as LA. pose proof (log_lo GeV T Gp lo E2 A2) as LA2.
  pose proof (log_hi GeV T Gp hi E2 EP ltac:(lra)) as LB2.
  pose proof (log_mono GeV Gp E2 E1 EP B2) as LM.
  destruct (cell T d dpos n2 grid _ (conj LA2 LB2)) as (j & J & C2 & Z2).
  assert (SF : is_sterile f = false) by (destruct f; (reflexivity || congruence)).
  unfold v1_single, single_checks. rewrite SF, (rlt_false (v_Emax T) E1), (rlt_false E1 (v_Emin T)) by lra.
  unfold v1_single_core; cbv zeta.
  rewrite (at1_ok _ _ 1), (at1_ok _ _ 0) by lia. cbn [obind]. rewrite (step1 T d n2 grid).
  pose proof (cell_step T d n2 grid j J) as DJ.
  destruct B as [B|B].
  - destruct (cell T d dpos n2 grid _ (conj LA (log_hi GeV T Gp hi E1 ltac:(lra) B))) as (i & I & C1 & Z1).
    rewrite Z1, Z2. cbn [obind].
    rewrite (proj2 (Nat.ltb_ge (v_n T - 1) j)), (proj2 (Nat.ltb_ge (v_n T - 1) i)), (rle_false E1 E2) by (lia || lra). cbn [orb].
    pose proof (cell_step T d n2 grid i I) as DI.
    rewrite (proj2 (Nat.eqb_neq i (v_n T - 1))) by lia.
    assert (BB : forall i' j', (i' < v_n T)%nat -> (j' < v_n T)%nat -> a <= v_d T (is_cc c) t f i' j' <= b) by exact BD.
    assert (G : exists v, (if (i =? j)%nat && (if Req_EM_T (v_d T (is_cc c) t f i (S j)) 0 then true else false)
        then Ok (tri_inter (ln (E1 / GeV)) (ln (E2 / GeV)) (v_l T i) (v_l T j) (v_d T (is_cc c) t f i j) (v_l T (S i)) (v_l T j) (v_d T (is_cc c) t f (S i) j) (v_l T (S i)) (v_l T (S j)) (v_d T (is_cc c) t f (S i) (S j)))
        else Ok (lin_inter (ln (E1 / GeV)) (v_l T i) (v_l T (S i)) (lin_inter (ln (E2 / GeV)) (v_l T j) (v_l T (S j)) (v_d T (is_cc c) t f i j) (v_d T (is_cc c) t f i (S j)))
                (lin_inter (ln (E2 / GeV)) (v_l T j) (v_l T (S j)) (v_d T (is_cc c) t f (S i) j) (v_d T (is_cc c) t f (S i) (S j))))) = Ok v /\ a <= v <= b).
    { destruct (Nat.eqb_spec i j) as [Eij|Nij]; cbn [andb].
      - subst j. destruct (Req_EM_T _ 0).
        + eexists; split; [reflexivity|].
          replace (v_l T (S i)) with (v_l T i + d) by lra. apply tri_between; try lra; apply BB; lia.
        + eexists; split; [reflexivity|]. apply lin_between; try lra; apply lin_between; try lra; apply BB; lia.
      - eexists; split; [reflexivity|]. apply lin_between; try lra; apply lin_between; try lra; apply BB; lia. }
    destruct CN as [-> | ->]; rewrite !at2_ok, !at1_ok by lia; cbn [obind]; exact G.
  - subst E1.
    assert (L1 : ln (v_Emax T / GeV) = v_l T (v_n T - 1)%nat).
    { rewrite hi. replace (GeV * exp (v_l T (v_n T - 1)%nat) / GeV) with (exp (v_l T (v_n T - 1)%nat)) by (field; lra). apply ln_exp. }
    rewrite L1, (cell_node T d dpos grid (v_n T - 1)%nat), Z2 by lia. cbn [obind].
    rewrite (proj2 (Nat.ltb_ge (v_n T - 1) j)), (proj2 (Nat.ltb_ge (v_n T - 1) (v_n T - 1))), (rle_false (v_Emax T) E2) by (lia || lra). cbn [orb].
    rewrite Nat.eqb_refl.
    destruct CN as [-> | ->]; rewrite !at2_ok, !at1_ok by lia; cbn [obind]; eexists; (split; [reflexivity|]); apply lin_between; try lra; apply BD; lia.
Qed.
Print Assumptions c31_single_inside.
(** An outgoing energy one cell or more below the table is accepted, and its cell number is undefined. *)
Theorem c31_single_low_refuted : forall GeV tiny T d E1 E2 f t c, log_uniform GeV T d -> f <> sterile ->
  v_Emin T <= E1 < v_Emax T -> 0 < E2 -> E2 <= GeV * exp (v_l T 0%nat - d) -> v1_single GeV tiny T E1 E2 f t c = UB.
Proof.
  intros GeV tiny T d E1 E2 f t c (dpos & n2 & Gp & grid & lo & hi) F [A B] P L.
  assert (EP : 0 < E1) by (pose proof (Emin_pos GeV T Gp lo); lra).
  assert (SF : is_sterile f = false) by (destruct f; (reflexivity || congruence)).
  destruct (cell T d dpos n2 grid _ (conj (log_lo GeV T Gp lo E1 A) (log_hi GeV T Gp hi E1 EP B))) as (i & I & C1 & Z1).
  unfold v1_single, single_checks. rewrite SF, (rlt_false (v_Emax T) E1), (rlt_false E1 (v_Emin T)) by lra.
  unfold v1_single_core; cbv zeta.
  rewrite (at1_ok _ _ 1), (at1_ok _ _ 0) by lia. cbn [obind]. rewrite (step1 T d n2 grid), Z1. cbn [obind].
  assert (LL : ln (E2 / GeV) <= v_l T 0%nat - d).
  { rewrite <- (ln_exp (v_l T 0%nat - d)). assert (Q : E2 / GeV <= exp (v_l T 0%nat - d)).
    { apply Rmult_le_reg_r with GeV; [lra|]. replace (E2 / GeV * GeV) with E2 by (field; lra). lra. }
    assert (0 < E2 / GeV) by (apply Rdiv_lt_0_compat; lra).
    destruct Q as [Q|Q]; [left; apply ln_increasing; assumption | rewrite Q; lra]. }
  unfold to_size. rewrite rle_true; [reflexivity|].
  apply Rmult_le_reg_r with d; [lra|]. replace ((ln (E2 / GeV) - v_l T 0%nat) / d * d) with (ln (E2 / GeV) - v_l T 0%nat) by (field; lra). lra.
Qed.
Print Assumptions c31_single_low_refuted.

(** A table of three energies 1, e, e^2 GeV. *)
Definition ex_v1 : v1 := V1 3 (fun i => INR i) (fun _ _ _ i => INR (S i)) (fun _ _ _ i j => INR (i + j)) (1 * exp 0) (1 * exp (INR 2)).
Lemma ex_v1_uniform : log_uniform 1 ex_v1 1.
Proof. unfold log_uniform, ex_v1; cbn [v_n v_l v_Emin v_Emax]. repeat split; try lra; try lia; intros; simpl; lra. Qed.
Example c31_example_total : v1_total 1 0 ex_v1 (1 * exp (INR 1)) muon neutrino CC = Ok (INR 2).
Proof. exact (c31_total_nodes 1 0 ex_v1 1 muon neutrino CC 1 ex_v1_uniform ltac:(discriminate) ltac:(cbn; lia)). Qed.
Example c31_example_top : v1_total 1 0 ex_v1 (1 * exp (INR 2)) muon neutrino CC = UB.
Proof. exact (c31_total_top_refuted 1 0 ex_v1 1 muon neutrino CC ex_v1_uniform ltac:(discriminate)). Qed.

(** The current class: every accepted energy is answered, both ends included, and the table's own values are returned at its energies. *)
Definition has_data (X : xs) (f : flavor) (d : fdata) : Prop :=
  x_flavor X f = Some d /\ (forall c, exists s, tot_spline (f_tot d c) = Ok s) /\ (forall c, exists b, diff_interp (f_diff d c) = Ok b).
Theorem c31_dis_total : forall GeV tiny X E f t c d, f <> sterile -> has_data X f d -> x_Emin X <= E <= x_Emax X ->
  exists v, dis_total GeV tiny X E f t c = Ok v /\ 0 < v /\
    forall i, (i < length (tt_x (f_tot d (chan_of t c))))%nat -> log10 E = nth i (tt_x (f_tot d (chan_of t c))) 0 -> v = pow10 (nth i (tt_y (f_tot d (chan_of t c))) 0).
Proof.
  intros GeV tiny X E f t c d F (HF & HS & _) H.
  destruct (HS (chan_of t c)) as (s & Hs).
  destruct (c16_continuous _ _ _ _ Hs) as (g & Hg & _).
  exists (pow10 (g (log10 E))). split; [|split].
  - unfold dis_total. rewrite total_checks_in by (assumption || lra). unfold dis_core, get_flavor. rewrite HF. cbn [obind]. rewrite Hs. cbn [obind]. rewrite Hg. reflexivity.
  - unfold pow10, Rpower; apply exp_pos.
  - intros i I HE. pose proof (c16_nodes _ _ _ _ i Hs I) as N. unfold lcol in N. rewrite <- HE, Hg in N. injection N as N. rewrite N. reflexivity.
Qed.
Print Assumptions c31_dis_total.
(** Which table answers for which type and current: nothing else in the object matters. *)
Inductive answers : nutype -> current -> chan -> Prop :=
| a1 : answers neutrino CC CCnu | a2 : answers antineutrino CC CCnubar | a3 : answers neutrino NC NCnu | a4 : answers antineutrino NC NCnubar.
(** A flavour without tables is refused within their range. *)
Theorem c31_no_tables : forall GeV tiny X f t c, f <> sterile -> x_flavor X f = None ->
  (forall E, x_Emin X <= E <= x_Emax X -> dis_total GeV tiny X E f t c = Throw RuntimeError) /\
  (forall E1 E2, x_Emin X < E1 <= x_Emax X -> dis_single GeV tiny X E1 E2 f t c = Throw RuntimeError).
Proof.
  intros GeV tiny X f t c F N. split.
  - intros E H. unfold dis_total. rewrite total_checks_in by (assumption || lra). unfold dis_core, get_flavor. now rewrite N.
  - intros E1 E2 H. unfold dis_single, single_checks. assert (SF : is_sterile f = false) by (destruct f; (reflexivity || congruence)).
    rewrite SF, (rlt_false (x_Emax X)), (rle_false E1) by lra. unfold dis_single_core, get_flavor. now rewrite N.
Qed.
Print Assumptions c31_no_tables.
Example c31_no_tables_case : electron <> sterile /\ x_flavor (XS 1 2 (fun _ => None)) electron = None /\ x_Emin (XS 1 2 (fun _ => None)) <= 3 / 2 <= x_Emax (XS 1 2 (fun _ => None)).
Proof. split; [discriminate|]. split; [reflexivity|]. cbn. lra. Qed.
Theorem c31_right_table : forall GeV tiny X X' f t c ch d d', answers t c ch ->
  x_Emin X = x_Emin X' -> x_Emax X = x_Emax X' -> x_flavor X f = Some d -> x_flavor X' f = Some d' ->
  (f_tot d ch = f_tot d' ch -> forall E, dis_total GeV tiny X E f t c = dis_total GeV tiny X' E f t c) /\
  (f_diff d ch = f_diff d' ch -> forall E1 E2, dis_single GeV tiny X E1 E2 f t c = dis_single GeV tiny X' E1 E2 f t c).
Proof.
  intros GeV tiny X X' f t c ch d d' A Em EM F F'. split; intros T.
  - assert (Q : forall E, dis_core X t f c E = dis_core X' t f c E).
    { intros E. unfold dis_core, get_flavor. rewrite F, F'. cbn [obind]. destruct A; cbn [chan_of is_cc]; rewrite T; reflexivity. }
    intros E. unfold dis_total. rewrite Em, EM. rewrite !total_checks_S. rewrite !Q. cbn [total_checks]. rewrite !Q. reflexivity.
  - intros E1 E2. unfold dis_single. rewrite Em, EM. f_equal. unfold dis_single_core, get_flavor. rewrite F, F', Em. cbn [obind]. destruct A; cbn [chan_of is_cc]; rewrite T; reflexivity.
Qed.
Print Assumptions c31_right_table.
(** At the nodes of the differential tables: energy number i (above the lowest) and fraction number j of the range below it. *)
Theorem c31_dis_single_nodes : forall GeV tiny X f t c d i j E1 E2, f <> sterile -> has_data X f d ->
  let T := f_diff d (chan_of t c) in
  (i < dt_cols T)%nat -> (j < dt_rows T)%nat -> x_Emin X < E1 <= x_Emax X -> x_Emin X < E2 ->
  log10 E1 = nth i (dt_x T) 0 -> E2 = x_Emin X + nth j (dt_y T) 0 * (E1 - x_Emin X) ->
  dis_single GeV tiny X E1 E2 f t c = Ok (pow10 (nth (j * dt_cols T + i) (dt_z T) 0) / (E1 / GeV)).
Proof.
  intros GeV tiny X f t c d i j E1 E2 F (HF & _ & HB) T I J H1 H2 L Z.
  destruct (HB (chan_of t c)) as (b & Hb). fold T in Hb.
  unfold dis_single, single_checks. assert (SF : is_sterile f = false) by (destruct f; (reflexivity || congruence)).
  rewrite SF, (rlt_false (x_Emax X)), (rle_false E1) by lra. unfold dis_single_core, get_flavor. rewrite HF. cbn [obind]. fold T. rewrite Hb. cbn [obind]. cbv zeta.
  rewrite (rle_false E2) by lra.
  replace ((E2 - x_Emin X) / (E1 - x_Emin X)) with (lcol (dt_y T) j) by (unfold lcol; rewrite Z; field; lra).
  replace (log10 E1) with (lcol (dt_x T) i) by (unfold lcol; rewrite L; reflexivity).
  unfold diff_interp in Hb.
  rewrite (c17_nodes _ _ _ _ _ _ _ _ i j Hb I J). reflexivity.
Qed.
Print Assumptions c31_dis_single_nodes.
(** Differential cross sections are answered for every outgoing energy, and are positive. *)
Theorem c31_dis_single : forall GeV tiny X E1 E2 f t c d, 0 < GeV -> 0 < tiny -> 0 < x_Emin X -> f <> sterile -> has_data X f d -> E1 <= x_Emax X ->
  exists v, dis_single GeV tiny X E1 E2 f t c = Ok v /\ 0 < v.
Proof.
  intros GeV tiny X E1 E2 f t c d G Tp P F (HF & _ & HB) H.
  destruct (HB (chan_of t c)) as (b & Hb).
  unfold dis_single, single_checks. assert (SF : is_sterile f = false) by (destruct f; (reflexivity || congruence)).
  rewrite SF, (rlt_false (x_Emax X)) by lra. destruct (Rle_lt_dec E1 (x_Emin X)).
  - rewrite rle_true by lra. exists tiny; split; [reflexivity | lra].
  - rewrite rle_false by lra. unfold dis_single_core, get_flavor. rewrite HF. cbn [obind]. rewrite Hb. cbn [obind]. cbv zeta.
    eexists; split; [reflexivity|]. apply Rdiv_lt_0_compat; [unfold pow10, Rpower; apply exp_pos | apply Rdiv_lt_0_compat; lra].
Qed.
Print Assumptions c31_dis_single.

(** ** C32 *)
Theorem c32_sterile : forall GeV tiny T X fastInt E1 E2 E3 t c,
  v1_total GeV tiny T E1 sterile t c = Ok 0 /\ v1_single GeV tiny T E1 E2 sterile t c = Ok 0 /\
  dis_total GeV tiny X E1 sterile t c = Ok 0 /\ dis_single GeV tiny X E1 E2 sterile t c = Ok 0 /\ dis_average GeV tiny X fastInt E1 E2 E3 sterile t c = Ok 0.
Proof. intros; repeat split; reflexivity. Qed.
Theorem c32_above : forall GeV tiny T X fastInt E1 E2 E3 f t c, f <> sterile ->
  (v_Emax T < E1 -> v1_total GeV tiny T E1 f t c = Throw RuntimeError /\ v1_single GeV tiny T E1 E2 f t c = Throw RuntimeError) /\
  (x_Emax X < E1 -> dis_total GeV tiny X E1 f t c = Throw RuntimeError /\ dis_single GeV tiny X E1 E2 f t c = Throw RuntimeError /\
     dis_average GeV tiny X fastInt E1 E2 E3 f t c = Throw RuntimeError).
Proof.
  intros GeV tiny T X fastInt E1 E2 E3 f t c F. assert (SF : is_sterile f = false) by (destruct f; (reflexivity || congruence)).
  split; intros H; repeat split; unfold v1_total, dis_total, v1_single, dis_single, dis_average, single_checks; cbn [total_checks]; rewrite SF, rlt_true by lra; reflexivity.
Qed.
(** Below the table: proportional to the energy, starting from the value at the lower end. *)
Theorem c32_below : forall GeV tiny X E f t c d, f <> sterile -> has_data X f d -> 0 < x_Emin X <= x_Emax X -> E < x_Emin X -> (10 * GeV <= E \/ x_Emin X <= 10 * GeV) ->
  exists v, dis_total GeV tiny X (x_Emin X) f t c = Ok v /\ dis_total GeV tiny X E f t c = Ok (v * (E / x_Emin X)).
Proof.
  intros GeV tiny X E f t c d F HD [P Q] L K.
  destruct (c31_dis_total GeV tiny X (x_Emin X) f t c d F HD ltac:(lra)) as (v & Hv & _). exists v; split; [exact Hv|].
  unfold dis_total in *. rewrite total_checks_in in Hv by (assumption || lra). rewrite total_checks_below by (assumption || lra). rewrite Hv. reflexivity.
Qed.
Print Assumptions c32_below.
Theorem c32_below_v1 : forall GeV tiny T d E f t c, log_uniform GeV T d -> f <> sterile -> E < v_Emin T -> (10 * GeV <= E \/ v_Emin T <= 10 * GeV) ->
  v1_total GeV tiny T E f t c = Ok (v_s T (is_cc c) t f 0 * (E / v_Emin T)).
Proof.
  intros GeV tiny T d E f t c H F L K. pose proof (c31_total_nodes GeV tiny T d f t c 0 H F) as N.
  destruct H as (dpos & n2 & Gp & grid & lo & hi). specialize (N ltac:(lia)). rewrite <- lo in N.
  assert (v_Emin T <= v_Emax T).
  { rewrite lo, hi. apply Rmult_le_compat_l; [lra|]. left; apply exp_increasing. rewrite (grid (v_n T - 1)%nat) by lia.
    assert (0 < INR (v_n T - 1)) by (apply (lt_INR 0); lia). nra. }
  unfold v1_total in *. rewrite total_checks_in in N by (assumption || lra). rewrite total_checks_below by (assumption || lra). rewrite N. reflexivity.
Qed.
Print Assumptions c32_below_v1.
(** When the table starts above 10 GeV, energies below 10 GeV get the smallest positive number instead. *)
Theorem c32_neglected : forall GeV tiny X E f t c, f <> sterile -> E < 10 * GeV -> 10 * GeV < x_Emin X -> x_Emin X <= x_Emax X -> dis_total GeV tiny X E f t c = Ok tiny.
Proof.
  intros GeV tiny X E f t c F A B M. assert (SF : is_sterile f = false) by (destruct f; (reflexivity || congruence)).
  unfold dis_total. cbn [total_checks]. rewrite SF, (rlt_false (x_Emax X)), (rlt_true E), (rlt_true (10 * GeV)) by lra. reflexivity.
Qed.
(** Continuous everywhere strictly inside (0, Emax), the lower end of the table included, when the table starts at or below 10 GeV. *)
Theorem c32_continuous : forall GeV tiny X f t c d, f <> sterile -> has_data X f d -> 0 < x_Emin X < x_Emax X -> x_Emin X <= 10 * GeV ->
  exists g, (forall E, 0 < E <= x_Emax X -> dis_total GeV tiny X E f t c = Ok (g E)) /\ forall E, 0 < E < x_Emax X -> continuity_pt g E.
Proof.
  intros GeV tiny X f t c d F (HF & HS & HB) [P Q] K.
  destruct (HS (chan_of t c)) as (s & Hs). destruct (c16_continuous _ _ _ _ Hs) as (h & Hh & Ch).
  set (up := fun E => pow10 (h (log10 E))). set (m := x_Emin X) in *.
  assert (CU : forall E, 0 < E -> continuity_pt up E).
  { intros E EP. unfold up, pow10, Rpower, log10.
    apply (continuity_pt_comp (fun E => h (ln E / ln 10) * ln 10) exp); [|apply derivable_continuous_pt, derivable_pt_exp].
    apply continuity_pt_mult; [|apply continuity_pt_const; intros ? ?; reflexivity].
    apply (continuity_pt_comp (fun E => ln E / ln 10) h); [|apply Ch].
    apply continuity_pt_mult; [|apply continuity_pt_const; intros ? ?; reflexivity].
    apply derivable_continuous_pt. exists (/ E). apply derivable_pt_lim_ln; exact EP. }
  assert (CORE : forall E, dis_core X t f c E = Ok (up E)).
  { intros E. unfold dis_core, get_flavor. rewrite HF. cbn [obind]. rewrite Hs. cbn [obind]. rewrite Hh. reflexivity. }
  exists (fun E => if rlt E m then up m * (E / m) else up E). split.
  - intros E HE. destruct (rlt_cases E m) as [[-> L]|[-> L]]; unfold dis_total.
    + rewrite total_checks_below by (assumption || (fold m; lra)). rewrite CORE. reflexivity.
    + rewrite total_checks_in by (assumption || lra). apply CORE.
  - intros E HE.
    assert (LIN : continuity (fun E => up m * (E / m))) by (unfold Rdiv; apply derivable_continuous; reg).
    destruct (Rtotal_order E m) as [L|[L|L]].
    + intros e He. destruct (LIN E e He) as (dl & Dp & D). exists (Rmin dl (m - E)). split; [apply Rmin_pos; lra|].
      intros x [Hx Dx]. unfold dist, R_met, R_dist in *. simpl in *. unfold R_dist in *.
      pose proof (Rmin_l dl (m - E)); pose proof (Rmin_r dl (m - E)).
      assert (x < m) by (apply Rabs_def2 in Dx; lra).
      rewrite (rlt_true x), (rlt_true E) by lra. apply D. split; [exact Hx | lra].
    + subst E. intros e He. destruct (LIN m e He) as (d1 & Dp1 & D1). destruct (CU m P e He) as (d2 & Dp2 & D2).
      exists (Rmin d1 d2). split; [apply Rmin_pos; lra|]. intros x [Hx Dx].
      pose proof (Rlt_le_trans _ _ _ Dx (Rmin_l d1 d2)) as Y1; pose proof (Rlt_le_trans _ _ _ Dx (Rmin_r d1 d2)) as Y2. rewrite (rlt_false m m) by lra.
      destruct (rlt_cases x m) as [[-> X1]|[-> X1]].
      * assert (EQ : up m * (m / m) = up m) by (field; lra). specialize (D1 x (conj Hx Y1)). rewrite EQ in D1. exact D1.
      * exact (D2 x (conj Hx Y2)).
    + intros e He. destruct (CU E ltac:(lra) e He) as (dl & Dp & D). exists (Rmin dl (E - m)). split; [apply Rmin_pos; lra|].
      intros x [Hx Dx]. simpl in *. unfold R_dist in *.
      pose proof (Rmin_l dl (E - m)); pose proof (Rmin_r dl (E - m)).
      assert (m < x) by (apply Rabs_def2 in Dx; lra).
      rewrite (rlt_false x), (rlt_false E) by lra. apply D. split; [exact Hx | lra].
Qed.
Print Assumptions c32_continuous.
(** An outgoing energy below the table never gives more than the lower end of the table does. *)
Theorem c32_capped : forall GeV tiny X E1 E2 f t c d v0 v, 0 < GeV -> 0 < x_Emin X -> f <> sterile -> has_data X f d -> E2 <= x_Emin X ->
  dis_single GeV tiny X E1 (x_Emin X) f t c = Ok v0 -> dis_single GeV tiny X E1 E2 f t c = Ok v -> v <= v0.
Proof.
  intros GeV tiny X E1 E2 f t c d v0 v G P F (HF & _ & HB) L.
  destruct (HB (chan_of t c)) as (b & Hb).
  unfold dis_single, single_checks. assert (SF : is_sterile f = false) by (destruct f; (reflexivity || congruence)). rewrite SF.
  destruct (rlt (x_Emax X) E1); [discriminate|]. destruct (Rle_lt_dec E1 (x_Emin X)).
  - rewrite rle_true by lra. intros A B. injection A as <-. injection B as <-. lra.
  - rewrite rle_false by lra. unfold dis_single_core, get_flavor. rewrite HF. cbn [obind]. rewrite Hb. cbn [obind]. cbv zeta.
    rewrite (rle_true (x_Emin X)), (rle_true E2) by lra. replace ((x_Emin X - x_Emin X) / (E1 - x_Emin X)) with 0 by (field; lra).
    rewrite (rlt_false (bicubic_eval b (log10 E1) 0)) by lra.
    intros A B. injection A as <-. injection B as <-.
    apply Rmult_le_compat_r; [left; apply Rinv_0_lt_compat, Rdiv_lt_0_compat; lra|].
    unfold pow10. assert (M : forall a b, a <= b -> Rpower 10 a <= Rpower 10 b) by (intros; apply Rle_Rpower; lra).
    apply M. destruct (rlt_cases (bicubic_eval b (log10 E1) 0) (bicubic_eval b (log10 E1) ((E2 - x_Emin X) / (E1 - x_Emin X)))) as [[-> ?]|[-> ?]]; lra.
Qed.
Print Assumptions c32_capped.
(** The order of the bounds of a bin does not matter, and an empty bin gives the value at its energy. *)
Theorem c32_average : forall GeV tiny X fastInt E1 a b f t c, dis_average GeV tiny X fastInt E1 a b f t c = dis_average GeV tiny X fastInt E1 b a f t c /\
  dis_average GeV tiny X fastInt E1 a a f t c = dis_single GeV tiny X E1 a f t c.
Proof.
  intros GeV tiny X fastInt E1 a b f t c. split.
  - unfold dis_average, single_checks. destruct (is_sterile f); [reflexivity|]. destruct (rlt (x_Emax X) E1); [reflexivity|]. destruct (rle E1 (x_Emin X)); [reflexivity|].
    destruct (Rtotal_order a b) as [L|[L|L]].
    + rewrite (rlt_false b a), (rlt_true a b) by lra. reflexivity.
    + subst b. reflexivity.
    + rewrite (rlt_true b a), (rlt_false a b) by lra. reflexivity.
  - unfold dis_average. rewrite (rlt_false a a) by lra. destruct (Req_EM_T a a) as [_|N]; [|congruence].
    unfold single_checks at 1. unfold dis_single, single_checks.
    destruct (is_sterile f); [reflexivity|]. destruct (rlt (x_Emax X) E1); [reflexivity|]. destruct (rle E1 (x_Emin X)); reflexivity.
Qed.
(** The mean over a bin lies between the bounds of the cross section in it, if the integral does. *)
Theorem c32_average_bounds : forall GeV tiny X fastInt E1 a b f t c m M v, a < b -> f <> sterile -> x_Emin X < E1 ->
  (forall g lo hi w, lo < hi -> fastInt g lo hi = Ok w -> (forall e u, lo <= e <= hi -> g e = Ok u -> m <= u <= M) -> m * (hi - lo) <= w <= M * (hi - lo)) ->
  (forall e u, a <= e <= b -> dis_single GeV tiny X E1 e f t c = Ok u -> m <= u <= M) ->
  dis_average GeV tiny X fastInt E1 a b f t c = Ok v -> m <= v <= M.
Proof.
  intros GeV tiny X fastInt E1 a b f t c m M v L F Hlo HI HB H. assert (SF : is_sterile f = false) by (destruct f; (reflexivity || congruence)).
  unfold dis_average, single_checks in H. rewrite SF in H. destruct (rlt (x_Emax X) E1); [discriminate|]. rewrite (rle_false E1), (rlt_false b a) in H by lra.
  destruct (Req_EM_T a b) as [E|_]; [lra|]. destruct (fastInt _ a b) as [w| |] eqn:W; [|discriminate..]. injection H as <-.
  assert (B : m * (b - a) <= w <= M * (b - a)) by (eapply HI; [exact L|exact W|exact HB]).
  assert (P : 0 < / (b - a)) by (apply Rinv_0_lt_compat; lra).
  split; (apply Rmult_le_reg_r with (b - a); [lra|]; unfold Rdiv; rewrite ?Rmult_assoc, Rinv_l; lra).
Qed.
Print Assumptions c32_average_bounds.
(** Such an integral: the value in the middle times the width. *)
Example c32_average_bounds_case : forall m M g lo hi w, let mid := fun (g : R -> outcome R) lo hi => obind (g ((lo + hi) / 2)) (fun y => Ok (y * (hi - lo))) in
  lo < hi -> mid g lo hi = Ok w -> (forall e u, lo <= e <= hi -> g e = Ok u -> m <= u <= M) -> m * (hi - lo) <= w <= M * (hi - lo).
Proof.
  intros m M g lo hi w mid L H B. unfold mid in H. destruct (g ((lo + hi) / 2)) as [y| |] eqn:E; [|discriminate..]. injection H as <-.
  apply B in E; [|lra]. split; apply Rmult_le_compat_r; lra.
Qed.
(** Tables for the examples: three energies 1, 10, 100; the differential ones over three fractions. *)
Definition ex_tt : total_tab := TT [0; 1; 2] [3; 5; 4].
Definition ex_dt : diff_tab := DT [0; 1; 2] [0; 1/2; 1] 3 3 [1; 2; 3; 4; 5; 6; 7; 8; 9].
Definition ex_fd : fdata := FD (fun _ => ex_tt) (fun _ => ex_dt).
Definition ex_xs : xs := XS 1 100 (fun f => match f with sterile => None | _ => Some ex_fd end).
Lemma three_increasing a b c : a < b < c -> strictly_increasing (lcol [a; b; c]) 3.
Proof. intros H i j A B. destruct i as [|[|[|]]], j as [|[|[|]]]; try lia; unfold lcol; simpl; lra. Qed.
Lemma ex_has_data : has_data ex_xs muon ex_fd.
Proof.
  split; [reflexivity|]. split; intros c.
  - apply (proj1 (c16_constructor (lcol [0; 1; 2]) (lcol [3; 5; 4]) 3)). split; [lia | apply three_increasing; lra].
  - apply (proj1 (c17_constructor (fun j i => nth (j * 3 + i) [1; 2; 3; 4; 5; 6; 7; 8; 9] 0) 3 3 (lcol [0; 1; 2]) 3 (lcol [0; 1/2; 1]) 3 ltac:(lia) ltac:(lia))).
    repeat split; try lia; apply three_increasing; lra.
Qed.
Example c31_example_dis : dis_total (1/10) 0 ex_xs 10 muon neutrino CC = Ok (pow10 5).
Proof.
  destruct (c31_dis_total (1/10) 0 ex_xs 10 muon neutrino CC ex_fd ltac:(discriminate) ex_has_data ltac:(cbn; lra)) as (v & H & _ & N).
  rewrite H, (N 1%nat); [reflexivity | cbn; lia | cbn]. unfold log10. field. assert (ln 1 < ln 10) by (apply ln_increasing; lra). rewrite ln_1 in *. lra.
Qed.
Example c32_example_below : exists v, dis_total (1/10) 0 ex_xs 1 muon neutrino CC = Ok v /\ dis_total (1/10) 0 ex_xs (1/2) muon neutrino CC = Ok (v * ((1/2) / 1)).
Proof. exact (c32_below (1/10) 0 ex_xs (1/2) muon neutrino CC ex_fd ltac:(discriminate) ex_has_data ltac:(cbn; lra) ltac:(cbn; lra) ltac:(cbn; right; lra)). Qed.

(** ** C34 *)
(** The first definition of a target in a history, independently of the library. *)
Fixpoint first_def {C : Type} (h : list (Z * option C)) (t : Z) : option (option C) :=
  match h with [] => None | (u, c) :: r => if Z.eqb u t then Some c else first_def r t end.
Lemma find_add {C : Type} (l : @library C) u c t : find_target (snd (add_target l u c)) t =
  match find_target l t with Some x => Some x | None => if Z.eqb u t then Some c else None end.
Proof.
  unfold add_target, has_target. destruct (find_target l u) eqn:H; cbn [snd].
  - destruct (find_target l t) eqn:G; [reflexivity|]. destruct (Z.eqb_spec u t); [congruence | reflexivity].
  - cbn [find_target]. destruct (Z.eqb_spec t u) as [->|N].
    + rewrite H, Z.eqb_refl. reflexivity.
    + destruct (find_target l t); [reflexivity|]. destruct (Z.eqb_spec u t); [congruence | reflexivity].
Qed.
Lemma find_history {C : Type} (h : list (Z * option C)) : forall l t, find_target (add_all l h) t = match find_target l t with Some x => Some x | None => first_def h t end.
Proof.
  unfold add_all. induction h as [|[u c] h IH]; intros l t; cbn [fold_left first_def fst snd].
  - destruct (find_target l t); reflexivity.
  - rewrite IH, find_add. destruct (find_target l t); [reflexivity|]. destruct (Z.eqb u t); reflexivity.
Qed.
(** After any history, failed additions included. *)
Theorem c34_first_definition : forall (C : Type) (h : list (Z * option C)) t,
  xs_for (add_all [] h) t = match first_def h t with Some c => c | None => None end /\
  (has_target (add_all [] h) t = true <-> In t (map fst h)).
Proof.
  intros C h t. unfold xs_for, has_target. rewrite find_history. cbn [find_target]. split; [reflexivity|].
  induction h as [|[u c] h IH]; cbn [first_def map In fst].
  - split; [discriminate | tauto].
  - destruct (Z.eqb_spec u t); [split; [left; assumption | reflexivity]|]. rewrite IH. tauto.
Qed.
Print Assumptions c34_first_definition.
Theorem c34_redefinition_rejected : forall (C : Type) (h : list (Z * option C)) t c,
  (In t (map fst h) -> add_target (add_all [] h) t c = (Throw RuntimeError, add_all [] h)) /\
  (~ In t (map fst h) -> fst (add_target (add_all [] h) t c) = Ok tt /\ xs_for (snd (add_target (add_all [] h) t c)) t = c /\
     forall u, u <> t -> xs_for (snd (add_target (add_all [] h) t c)) u = xs_for (add_all [] h) u).
Proof.
  intros C h t c. pose proof (proj2 (c34_first_definition C h t)) as HT. split; intros H.
  - apply HT in H. unfold add_target. rewrite H. reflexivity.
  - assert (HF : has_target (add_all [] h) t = false) by (destruct (has_target (add_all [] h) t); [tauto | reflexivity]).
    unfold xs_for. repeat split; intros; rewrite ?find_add.
    + unfold add_target. rewrite HF. reflexivity.
    + unfold has_target in HF. destruct (find_target (add_all [] h) t); [discriminate|]. rewrite Z.eqb_refl. reflexivity.
    + destruct (find_target (add_all [] h) u); [reflexivity|]. destruct (Z.eqb_spec t u); [congruence | reflexivity].
Qed.
Print Assumptions c34_redefinition_rejected.
Theorem c34_unknown : forall (C : Type) (h : list (Z * option C)) t, ~ In t (map fst h) -> xs_for (add_all [] h) t = None.
Proof.
  intros C h t H. rewrite (proj1 (c34_first_definition C h t)). destruct (first_def h t) eqn:E; [|reflexivity].
  exfalso. apply H. clear H. induction h as [|[u c] h IH]; cbn [first_def map In fst] in *; [discriminate|]. destruct (Z.eqb_spec u t); tauto.
Qed.
Print Assumptions c34_unknown.
Example c34_example : xs_for (add_all [] [(2212, Some 1); (2112, Some 2); (2212, Some 3); (11, Some 4)]%Z) 2212%Z = Some 1%Z.
Proof. reflexivity. Qed.
