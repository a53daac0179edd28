(** C101: which data files are read. *)
From Coq Require Import List Arith Reals Lra Lia Bool String ZArith Permutation.
From Verif Require Import Err GridModel GridProofs AkimaModel BicubicModel TauModel XsModel XsFileModel AkimaBicubicProps XsProofs XsFileProofs XsProps XsFileProps XsChooseModel.
Import ListNotations.
Local Open Scope R_scope.

(** ** Specification *)
Local Open Scope string_scope.
(** Names of the text files: particle, quantity, interaction. *)
Definition particle (c : chan) : string := match c with CCnu | NCnu => "nu" | _ => "nubar" end.
Definition interaction (c : chan) : string := match c with CCnu | CCnubar => "CC" | _ => "NC" end.
Definition file (p quantity : string) (c : chan) : string := p ++ particle c ++ "_" ++ quantity ++ "_" ++ interaction c ++ ".dat".
Definition of_flavor (p : string) (g : flavor) : string := p ++ match g with electron => "electron_" | muon => "muon_" | _ => "tau_" end.
(** All eight files. *)
Definition whole_set (f : fs) (p : string) : Prop := forall c, f (file p "sigma" c) <> None /\ f (file p "dsde" c) <> None.
Definition plain (f : fs) (p : string) : Prop := match f p with Some (H5 _) | Some (H5v1 _) => False | _ => True end.
Local Close Scope string_scope.
(** A table read from a file with rows: its energies and values, and the energies the file begins and ends with. *)
Definition total_of (GeV : R) (f : fs) (name : string) (t : total_tab) (lo hi : R) : Prop := exists rows, f name = Some (Text rows) /\
  (forall r, In r rows -> List.length r = 2%nat) /\ rows <> [] /\
  tt_x t = map (fun r => log10 (nth 0 r 0 * GeV)) rows /\ tt_y t = map (fun r => log10 (nth 1 r 0)) rows /\
  lo = nth 0 (hd [] rows) 0 * GeV /\ hi = nth 0 (last rows []) 0 * GeV.
Definition diff_of (GeV : R) (f : fs) (name : string) (t : diff_tab) (lo hi : R) : Prop := exists rows, f name = Some (Text rows) /\
  (forall r, In r rows -> List.length r = 3%nat) /\ rows <> [] /\
  List.length rows = (List.length (dt_x t) * List.length (dt_y t))%nat /\
  (forall i, (i < List.length (dt_x t))%nat -> nth i (dt_x t) 0 = log10 (nth 0 (nth (i * List.length (dt_y t)) rows []) 0 * GeV)) /\
  lo = nth 0 (hd [] rows) 0 * GeV /\ hi = nth 0 (last rows []) 0 * GeV.

(** ** Names *)
Lemma app_assoc_s (a b c : string) : ((a ++ b) ++ c = a ++ b ++ c)%string.
Proof. induction a as [|x a IH]; cbn [append]; [reflexivity|]. rewrite IH. reflexivity. Qed.
Lemma eqb_app p a b : String.eqb (p ++ a) (p ++ b) = String.eqb a b.
Proof. induction p as [|x p IH]; cbn [append]; [reflexivity|]. cbn [String.eqb]. rewrite Ascii.eqb_refl. exact IH. Qed.
Lemma app_inj p a b : (p ++ a = p ++ b)%string -> a = b.
Proof. intros H. apply String.eqb_eq. rewrite <- (eqb_app p). apply String.eqb_eq. exact H. Qed.
Lemma app_self p a : (p ++ a)%string = p -> a = EmptyString.
Proof. intros H. apply (app_inj p). rewrite H. induction p as [|x p IH]; cbn; [reflexivity|]. f_equal. apply IH. cbn in H. injection H as H. exact H. Qed.
Lemma file_tot p c : file p "sigma" c = (p ++ tot_name c)%string. Proof. destruct c; reflexivity. Qed.
Lemma file_diff p c : file p "dsde" c = (p ++ diff_name c)%string. Proof. destruct c; reflexivity. Qed.
Lemma of_flavor_prefix p g : of_flavor p g = flav_prefix p g. Proof. destruct g; reflexivity. Qed.
Lemma exists_spec f p : fexists f p = true <-> f p <> None.
Proof. unfold fexists. destruct (f p); split; congruence. Qed.
Lemma complete_spec f p : complete f p = true <-> whole_set f p.
Proof.
  unfold complete, whole_set. cbn [forallb]. rewrite !andb_true_iff, !exists_spec. split.
  - intros H c. rewrite file_tot, file_diff. destruct c; tauto.
  - intros H. pose proof (H CCnu) as A. pose proof (H NCnu) as B. pose proof (H CCnubar) as C. pose proof (H NCnubar) as D.
    rewrite file_tot, file_diff in A, B, C, D. tauto.
Qed.
Lemma complete_false f p : complete f p = false <-> ~ whole_set f p.
Proof. rewrite <- complete_spec. destruct (complete f p); split; congruence. Qed.
Lemma plain_hdf f p : is_hdf f p = false <-> plain f p.
Proof. unfold is_hdf, plain. destruct (f p) as [[]|]; split; try tauto; try congruence; try discriminate. Qed.

(** ** Where data is looked for *)
Theorem c101_resource : forall installed inst src, resource_path None installed inst src = (if installed then inst else src) /\
  (forall d, resource_path (Some d) installed inst src = d) /\
  forall d, dis_default (resource_path (Some d) installed inst src) = (d ++ "/xsections/csms_square.h5")%string /\
    v1_default (resource_path (Some d) installed inst src) = (d ++ "/xsections/csms.h5")%string /\
    proton_default (resource_path (Some d) installed inst src) = (d ++ "/xsections/csms_proton.h5")%string /\
    neutron_default (resource_path (Some d) installed inst src) = (d ++ "/xsections/csms_neutron.h5")%string /\
    earth_default (resource_path (Some d) installed inst src) = (d ++ "/astro/EARTH_MODEL_PREM.dat")%string /\
    sun_default (resource_path (Some d) installed inst src) = (d ++ "/astro/bs05_agsop.dat")%string.
Proof.
  intros installed inst src. split; [destruct installed; reflexivity|]. split; [reflexivity|]. intros d.
  unfold dis_default, v1_default, proton_default, neutron_default, earth_default, sun_default. rewrite !app_assoc_s. repeat split; reflexivity.
Qed.
Print Assumptions c101_resource.
(** A variable that is set but empty is not like one that is not set: the root of the file system is searched. *)
Theorem c101_empty_variable_refuted : forall inst src, earth_default (resource_path (Some EmptyString) true inst src) = "/astro/EARTH_MODEL_PREM.dat"%string.
Proof. reflexivity. Qed.
Print Assumptions c101_empty_variable_refuted.

(** ** Layout of text files *)
Section Gev.
Variable GeV : R.
Lemma checked_inv {T : Type} er (o : outcome (T * R * R)) t : checked er o = Ok t <-> o = Ok (t, fst er, snd er).
Proof.
  unfold checked. destruct o as [[[t' lo] hi]|e|]; cbn [obind]; [|split; discriminate|split; discriminate].
  destruct (Req_EM_T lo (fst er)) as [->|N]; [destruct (Req_EM_T hi (snd er)) as [->|N]|]; split; intros H; try discriminate; try congruence.
Qed.
Lemma obind_inv {A B : Type} (o : outcome A) (k : A -> outcome B) b : obind o k = Ok b -> exists a, o = Ok a /\ k a = Ok b.
Proof. destruct o; cbn; try discriminate. intros H. exists a. auto. Qed.
(** What has been read for a flavour. *)
Definition flavor_read (f : fs) (p : string) (er : erange) (d : fdata) (e : R * R) : Prop :=
  (exists lo hi, text1 GeV f (p ++ tot_name CCnu) = Ok (f_tot d CCnu, lo, hi) /\ e = settle er lo hi) /\
  (forall c, c <> CCnu -> text1 GeV f (p ++ tot_name c) = Ok (f_tot d c, fst e, snd e)) /\
  (forall c, text2 GeV f (p ++ diff_name c) = Ok (f_diff d c, fst e, snd e)).
Lemma flavor_text_inv f p er d e : flavor_text GeV f p er = Ok (d, e) -> flavor_read f p er d e.
Proof.
  unfold flavor_text. intros H.
  apply obind_inv in H. destruct H as ([[t1 lo] hi] & E1 & H). cbv zeta in H.
  apply obind_inv in H. destruct H as (t2 & E2 & H). apply obind_inv in H. destruct H as (t3 & E3 & H). apply obind_inv in H. destruct H as (t4 & E4 & H).
  apply obind_inv in H. destruct H as (d1 & F1 & H). apply obind_inv in H. destruct H as (d2 & F2 & H). apply obind_inv in H. destruct H as (d3 & F3 & H).
  apply obind_inv in H. destruct H as (d4 & F4 & H).
  apply checked_inv in E2, E3, E4, F1, F2, F3, F4. injection H as <- <-. split; [|split].
  - exists lo, hi. split; [exact E1 | reflexivity].
  - intros c N. destruct c; [congruence | exact E2 | exact E3 | exact E4].
  - intros c. destruct c; assumption.
Qed.
Lemma flavor_text_ok f p er d e : flavor_read f p er d e -> exists d', flavor_text GeV f p er = Ok (d', e) /\ (forall c, f_tot d' c = f_tot d c) /\ (forall c, f_diff d' c = f_diff d c).
Proof.
  intros ((lo & hi & E1 & ->) & T & D). unfold flavor_text. rewrite E1. cbn [obind]. cbv zeta.
  rewrite (proj2 (checked_inv _ _ (f_tot d NCnu)) (T NCnu ltac:(discriminate))). cbn [obind].
  rewrite (proj2 (checked_inv _ _ (f_tot d CCnubar)) (T CCnubar ltac:(discriminate))). cbn [obind].
  rewrite (proj2 (checked_inv _ _ (f_tot d NCnubar)) (T NCnubar ltac:(discriminate))). cbn [obind].
  rewrite (proj2 (checked_inv _ _ (f_diff d CCnu)) (D CCnu)). cbn [obind]. rewrite (proj2 (checked_inv _ _ (f_diff d NCnu)) (D NCnu)). cbn [obind].
  rewrite (proj2 (checked_inv _ _ (f_diff d CCnubar)) (D CCnubar)). cbn [obind]. rewrite (proj2 (checked_inv _ _ (f_diff d NCnubar)) (D NCnubar)). cbn [obind].
  eexists. split; [reflexivity|]. split; intros []; reflexivity.
Qed.
Lemma quickread_inv f p rows : quickread_file f p = Ok rows -> rows <> [] -> f p = Some (Text rows) /\ forall r, In r rows -> List.length r = List.length (hd [] rows).
Proof.
  unfold quickread_file. destruct (f p) as [[rs|F|T|]|]; try discriminate.
  - destruct (forallb _ rs) eqn:E; [|discriminate]. intros H _. injection H as <-. split; [reflexivity|]. intros r Hr.
    rewrite forallb_forall in E. apply Nat.eqb_eq. apply E. exact Hr.
  - intros H N. injection H as <-. congruence.
Qed.
Lemma last_map {A B : Type} (h : A -> B) l a b : l <> [] -> last (map h l) b = h (last l a).
Proof. induction l as [|x [|y l] IH]; intros N; [congruence | reflexivity|]. change (last (map h (x :: y :: l)) b) with (last (map h (y :: l)) b). rewrite IH by discriminate. reflexivity. Qed.
Lemma text1_inv f p t lo hi : text1 GeV f p = Ok (t, lo, hi) -> total_of GeV f p t lo hi.
Proof.
  unfold text1. intros H. apply obind_inv in H. destruct H as (rows & Q & H).
  destruct (Nat.eqb (List.length (hd [] rows)) 2) eqn:L; [|discriminate]. apply Nat.eqb_eq in L.
  assert (N : rows <> []) by (intros E; rewrite E in L; cbn in L; lia). destruct (quickread_inv _ _ _ Q N) as (F & W). exists rows.
  split; [exact F|]. split; [intros r Hr; rewrite (W r Hr); exact L|]. split; [exact N|].
  destruct rows as [|r0 rs]; [congruence|]. unfold read1D in H. cbn [map] in H. apply obind_inv in H. destruct H as (s & _ & H). injection H as <- <- <-.
  cbn [tt_x tt_y]. rewrite !map_map. repeat split; try reflexivity. change (fst (last (map pair_of (r0 :: rs)) (pair_of r0)) * GeV = nth 0 (last (r0 :: rs) []) 0 * GeV). rewrite (last_map pair_of (r0 :: rs) []); [reflexivity | congruence].
Qed.
Lemma text2_inv f p t lo hi : text2 GeV f p = Ok (t, lo, hi) -> diff_of GeV f p t lo hi.
Proof.
  unfold text2. intros H. apply obind_inv in H. destruct H as (rows & Q & H).
  destruct (Nat.eqb (List.length (hd [] rows)) 3) eqn:L; [|discriminate]. apply Nat.eqb_eq in L.
  assert (N : rows <> []) by (intros E; rewrite E in L; cbn in L; lia). destruct (quickread_inv _ _ _ Q N) as (F & W). exists rows.
  split; [exact F|]. split; [intros r Hr; rewrite (W r Hr); exact L|]. split; [exact N|].
  unfold read2D in H. cbv zeta in H. set (z := z_loop false 0 (map triple_of rows)) in *. destruct (Nat.eqb z 0) eqn:Z0; [discriminate|]. apply Nat.eqb_neq in Z0.
  rewrite map_length in H. destruct (Nat.eqb z (List.length rows)) eqn:ZN; [discriminate|]. cbn [orb] in H.
  destruct (Nat.eqb (List.length rows / z * z) (List.length rows)) eqn:ZE; [|discriminate]. cbn [negb] in H. apply Nat.eqb_eq in ZE.
  apply obind_inv in H. destruct H as (b & _ & H). injection H as <- <- <-. cbn [dt_x dt_y]. rewrite !map_length, !seq_length.
  split; [lia|].
  assert (NT : forall i, (i < List.length rows)%nat -> en3 (nth i (map triple_of rows) zero3) = nth 0 (nth i rows []) 0).
  { intros i Hi. rewrite (nth_indep _ zero3 (triple_of [])) by (rewrite map_length; exact Hi). rewrite map_nth. reflexivity. }
  assert (P : (0 < List.length rows)%nat) by (destruct rows; [congruence | cbn; lia]).
  split; [|split].
  - intros i Hi. rewrite nth_map_seq by exact Hi. rewrite NT by nia. reflexivity.
  - rewrite NT by exact P. destruct rows; reflexivity.
  - rewrite NT by lia. rewrite last_nth. reflexivity.
Qed.
End Gev.

(** A prefix that is not an HDF5 file: a whole set of files under it serves all flavours, whatever else there is; otherwise the
    three sets of the flavours do; otherwise it is refused. *)
Theorem c101_layout : forall GeV f p, plain f p ->
  (whole_set f p -> forall X, construct GeV f p = Ok X -> forall g c,
     (exists lo hi, total_of GeV f (file p "sigma" c) (f_tot (p_data X g) c) lo hi) /\ (exists lo hi, diff_of GeV f (file p "dsde" c) (f_diff (p_data X g) c) lo hi)) /\
  (~ whole_set f p -> (forall g, g <> sterile -> whole_set f (of_flavor p g)) -> forall X, construct GeV f p = Ok X -> forall g c, g <> sterile ->
     (exists lo hi, total_of GeV f (file (of_flavor p g) "sigma" c) (f_tot (p_data X g) c) lo hi) /\ (exists lo hi, diff_of GeV f (file (of_flavor p g) "dsde" c) (f_diff (p_data X g) c) lo hi)) /\
  (~ whole_set f p -> (exists g, g <> sterile /\ ~ whole_set f (of_flavor p g)) -> construct GeV f p = Throw RuntimeError).
Proof.
  intros GeV f p P. apply plain_hdf in P. unfold construct. rewrite P. unfold read_text.
  assert (K : forall q er d e, flavor_text GeV f q er = Ok (d, e) -> forall c, (exists lo hi, total_of GeV f (file q "sigma" c) (f_tot d c) lo hi) /\ (exists lo hi, diff_of GeV f (file q "dsde" c) (f_diff d c) lo hi)).
  { intros q er d e H c. apply flavor_text_inv in H. destruct H as ((lo & hi & A & _) & T & D). rewrite file_tot, file_diff. split.
    - destruct c; [exists lo, hi | exists (fst e), (snd e) | exists (fst e), (snd e) | exists (fst e), (snd e)]; apply text1_inv; [exact A | | |]; apply T; discriminate.
    - exists (fst e), (snd e). apply text2_inv. apply D. }
  split; [|split].
  - intros W X H g c. apply complete_spec in W. rewrite W in H. apply obind_inv in H. destruct H as ([d e] & H & E). injection E as <-. exact (K _ _ _ _ H c).
  - intros W V X H g c G. apply complete_false in W. rewrite W in H. rewrite <- !of_flavor_prefix in H.
    rewrite (proj2 (complete_spec f (of_flavor p electron)) (V electron ltac:(discriminate))) in H.
    rewrite (proj2 (complete_spec f (of_flavor p muon)) (V muon ltac:(discriminate))) in H.
    rewrite (proj2 (complete_spec f (of_flavor p tau)) (V tau ltac:(discriminate))) in H. cbn [andb] in H.
    apply obind_inv in H. destruct H as ([d1 e1] & H1 & H). apply obind_inv in H. destruct H as ([d2 e2] & H2 & H). apply obind_inv in H. destruct H as ([d3 e3] & H3 & H).
    injection H as <-. destruct g; [exact (K _ _ _ _ H1 c) | exact (K _ _ _ _ H2 c) | exact (K _ _ _ _ H3 c) | congruence].
  - intros W (g & G & V). apply complete_false in W. rewrite W. apply complete_false in V. rewrite of_flavor_prefix in V.
    destruct g; [| | |congruence]; rewrite V; rewrite ?andb_false_r; reflexivity.
Qed.
Print Assumptions c101_layout.

(** ** One range of energies *)
Lemma settle_pos er lo hi : (forall a b, er = Some (a, b) -> 0 < a /\ 0 < b) -> settle er lo hi = match er with Some e => e | None => (lo, hi) end.
Proof. intros H. destruct er as [[a b]|]; [|reflexivity]. destruct (H a b eq_refl) as (A & B). cbn [settle]. rewrite !rlt_true by assumption. reflexivity. Qed.
Lemma total_pos GeV f q t lo hi : 0 < GeV -> (forall rows r, f q = Some (Text rows) -> In r rows -> 0 < nth 0 r 0) -> total_of GeV f q t lo hi -> 0 < lo /\ 0 < hi.
Proof.
  intros G H (rows & F & _ & N & _ & _ & -> & ->). split; apply Rmult_lt_0_compat; try assumption; apply (H rows); try assumption.
  - destruct rows; [congruence | left; reflexivity].
  - destruct (exists_last N) as (l & a & ->). rewrite last_last. apply in_or_app. right; left; reflexivity.
Qed.
(** Every table read from text covers exactly the range of the object, except the first table of the muon and the tau flavour. *)
Theorem c101_range : forall GeV f p X, 0 < GeV -> plain f p -> ~ whole_set f p ->
  (forall rows r, f (file (of_flavor p electron) "sigma" CCnu) = Some (Text rows) -> In r rows -> 0 < nth 0 r 0) ->
  construct GeV f p = Ok X -> forall g c, g <> sterile ->
  (g = electron \/ c <> CCnu -> total_of GeV f (file (of_flavor p g) "sigma" c) (f_tot (p_data X g) c) (p_Emin X) (p_Emax X)) /\
  diff_of GeV f (file (of_flavor p g) "dsde" c) (f_diff (p_data X g) c) (p_Emin X) (p_Emax X).
Proof.
  intros GeV f p X GP P W POS H g c G. apply plain_hdf in P. unfold construct in H. rewrite P in H. unfold read_text in H. apply complete_false in W. rewrite W in H.
  destruct (andb _ _) in H; [|discriminate]. rewrite <- !of_flavor_prefix in H.
  apply obind_inv in H. destruct H as ([d1 e1] & H1 & H). apply obind_inv in H. destruct H as ([d2 e2] & H2 & H). apply obind_inv in H. destruct H as ([d3 e3] & H3 & H).
  cbn [fst snd] in H2, H3, H. apply flavor_text_inv in H1, H2, H3.
  destruct H1 as ((lo1 & hi1 & A1 & S1) & T1 & D1), H2 as ((lo2 & hi2 & A2 & S2) & T2 & D2), H3 as ((lo3 & hi3 & A3 & S3) & T3 & D3).
  cbn [settle] in S1. rewrite <- file_tot in A1.
  destruct (total_pos GeV f _ _ _ _ GP POS (text1_inv _ _ _ _ _ _ A1)) as (PL & PH). rewrite file_tot in A1.
  assert (E2 : e2 = (lo1, hi1)). { rewrite S2, S1. apply settle_pos. intros a b E. injection E as <- <-. auto. }
  assert (E3 : e3 = (lo1, hi1)). { rewrite S3, E2. apply settle_pos. intros a b E. injection E as <- <-. auto. }
  clear S2 S3. subst e1 e2 e3. cbn [fst snd] in *. injection H as <-. cbn [p_Emin p_Emax]. rewrite file_tot, file_diff.
  destruct g; [| | |congruence]; (split; [intros CC | apply text2_inv]); unfold p_data; cbn [p_ptr p_heap].
  - apply text1_inv. destruct c; [exact A1 | | |]; apply T1; discriminate.
  - apply D1.
  - apply text1_inv. apply T2. destruct CC; [discriminate | assumption].
  - apply D2.
  - apply text1_inv. apply T3. destruct CC; [discriminate | assumption].
  - apply D3.
Qed.
Print Assumptions c101_range.
(** Common tables: all of them. *)
Theorem c101_range_common : forall GeV f p X, plain f p -> whole_set f p -> construct GeV f p = Ok X -> forall g c,
  total_of GeV f (file p "sigma" c) (f_tot (p_data X g) c) (p_Emin X) (p_Emax X) /\ diff_of GeV f (file p "dsde" c) (f_diff (p_data X g) c) (p_Emin X) (p_Emax X).
Proof.
  intros GeV f p X P W H g c. apply plain_hdf in P. unfold construct in H. rewrite P in H. unfold read_text in H. apply complete_spec in W. rewrite W in H.
  apply obind_inv in H. destruct H as ([d e] & H & E). injection E as <-. apply flavor_text_inv in H. destruct H as ((lo & hi & A & S0) & T & D). cbn [settle] in S0.
  subst e. cbn [fst snd p_Emin p_Emax] in *. rewrite file_tot, file_diff. unfold p_data; cbn [p_heap p_ptr]. split; [apply text1_inv | apply text2_inv; apply D].
  destruct c; [exact A | | |]; apply T; discriminate.
Qed.
Print Assumptions c101_range_common.

(** ** Writing and reading back *)
Section Write.
Variable GeV : R.
Hypothesis GP : 0 < GeV.
Lemma eqb_diff a b : String.eqb a b = false <-> a <> b. Proof. apply String.eqb_neq. Qed.
Lemma write_flavor_ok (w : string -> bool) d p f rows : (forall q, w q = true) -> (forall c, write2D GeV (f_diff d c) = Ok (rows c)) -> exists f',
  write_flavor_text GeV w d p f = Ok f' /\
  (forall c, f' (p ++ tot_name c)%string = Some (cols2 (write1D GeV (f_tot d c))) /\ f' (p ++ diff_name c)%string = Some (cols3 (rows c))) /\
  (forall q, (forall c, q <> (p ++ tot_name c)%string /\ q <> (p ++ diff_name c)%string) -> f' q = f q).
Proof.
  intros W R0. unfold write_flavor_text, wr1, wr2, put_if. repeat progress (rewrite ?W, ?R0; cbn [obind]).
  eexists. split; [reflexivity|]. split.
  - intros c. unfold put. rewrite !eqb_app. destruct c; split; reflexivity.
  - intros q N. unfold put. destruct (N CCnu) as (A1 & B1), (N NCnu) as (A2 & B2), (N CCnubar) as (A3 & B3), (N NCnubar) as (A4 & B4).
    apply eqb_diff in A1, A2, A3, A4, B1, B2, B3, B4. rewrite A1, A2, A3, A4, B1, B2, B3, B4. reflexivity.
Qed.
(** Files of different flavours have different names. *)
Definition mine (p : string) (g : flavor) (q : string) : Prop := exists c, q = (flav_prefix p g ++ tot_name c)%string \/ q = (flav_prefix p g ++ diff_name c)%string.
Lemma mine_tail p g q : mine p g q -> exists n, q = (p ++ n)%string /\ mine EmptyString g n.
Proof.
  intros (c & [-> | ->]); unfold flav_prefix at 1; rewrite app_assoc_s; eexists; (split; [reflexivity|]); exists c; [left | right]; reflexivity.
Qed.
Lemma mine_differs p g g' q : g <> sterile -> g' <> sterile -> mine p g q -> mine p g' q -> g = g'.
Proof.
  intros G G' A B. apply mine_tail in A, B. destruct A as (n & -> & c & A), B as (n' & E & c' & B). apply app_inj in E. subst n'.
  destruct g, g'; try congruence; exfalso; destruct A as [-> | ->], B as [E | E]; destruct c, c'; discriminate E.
Qed.
Lemma write_text_ok (w : string -> bool) X p rows : (forall q, w q = true) -> (forall g c, g <> sterile -> write2D GeV (f_diff (p_data X g) c) = Ok (rows g c)) ->
  forall ord f, NoDup ord -> ~ In sterile ord -> exists f', write_text GeV w ord X p f = Ok f' /\
  (forall g c, In g ord -> f' (flav_prefix p g ++ tot_name c)%string = Some (cols2 (write1D GeV (f_tot (p_data X g) c))) /\ f' (flav_prefix p g ++ diff_name c)%string = Some (cols3 (rows g c))) /\
  (forall q, (forall g, In g ord -> ~ mine p g q) -> f' q = f q).
Proof.
  intros W RW ord. induction ord as [|g ord IH]; intros f ND NS.
  - exists f. split; [reflexivity|]. split; [intros g c []|]. reflexivity.
  - apply NoDup_cons_iff in ND. destruct ND as (NI & ND). assert (G : g <> sterile) by (intros ->; apply NS; left; reflexivity).
    destruct (write_flavor_ok w (p_data X g) (flav_prefix p g) f (rows g) W (fun c => RW g c G)) as (f1 & E & A & B).
    destruct (IH f1 ND (fun K => NS (or_intror K))) as (f2 & E2 & A2 & B2).
    exists f2. cbn [write_text]. rewrite E. cbn [obind]. split; [exact E2|].
    assert (K : forall q, mine p g q -> f2 q = f1 q).
    { intros q M. apply B2. intros g' I' M'. assert (G' : g' <> sterile) by (intros ->; apply NS; right; exact I'). pose proof (mine_differs p g g' q G G' M M'). congruence. }
    split.
    + intros g' c [<- | I']; [|exact (A2 g' c I')]. rewrite !K; [exact (A c) | exists c; right; reflexivity | exists c; left; reflexivity].
    + intros q N. rewrite B2 by (intros g' I'; apply N; right; exact I'). apply B. intros c. specialize (N g (or_introl eq_refl)). split; intros E'; apply N; exists c; [left | right]; exact E'.
Qed.
Lemma text1_cols f q l : f q = Some (cols2 l) -> text1 GeV f q = read1D GeV l.
Proof.
  intros H. unfold text1, quickread_file. rewrite H. unfold cols2. destruct l as [|a l]; [reflexivity|].
  replace (forallb _ _) with true.
  - cbn [obind]. change (List.length (hd [] (map (fun p : R * R => [fst p; snd p]) (a :: l)))) with 2%nat. rewrite Nat.eqb_refl. rewrite map_map. f_equal.
    rewrite <- (map_id (a :: l)) at 2. apply map_ext. intros []; reflexivity.
  - symmetry. apply forallb_forall. intros r Hr. apply in_map_iff in Hr. destruct Hr as (x & <- & _). reflexivity.
Qed.
Lemma text2_cols f q l : f q = Some (cols3 l) -> text2 GeV f q = read2D GeV l.
Proof.
  intros H. unfold text2, quickread_file. rewrite H. unfold cols3. destruct l as [|a l]; [reflexivity|].
  replace (forallb _ _) with true.
  - cbn [obind]. change (List.length (hd [] (map (fun r : row3 => [fst (fst r); snd (fst r); snd r]) (a :: l)))) with 3%nat. rewrite Nat.eqb_refl. rewrite map_map. f_equal.
    rewrite <- (map_id (a :: l)) at 2. apply map_ext. intros [[]]; reflexivity.
  - symmetry. apply forallb_forall. intros r Hr. apply in_map_iff in Hr. destruct Hr as (x & <- & _). reflexivity.
Qed.
(** A table as it comes back from text (C33). *)
Definition back_as (t t' : diff_tab) : Prop := dt_x t' = dt_x t /\ dt_rows t' = dt_rows t /\ dt_cols t' = dt_cols t /\
  (forall i j, (i < dt_cols t)%nat -> (j < dt_rows t)%nat -> nth (j * dt_cols t + i) (dt_z t') 0 = nth (i * dt_cols t + j) (dt_z t) 0) /\
  (forall j, (j < dt_rows t)%nat -> nth j (dt_y t') 0 = INR j / INR (dt_rows t - 1)).
Lemma back_exists t : good_diff t -> (dt_cols t <= dt_rows t)%nat -> exists q, write2D GeV t = Ok (fst q) /\
  read2D GeV (fst q) = Ok (snd q, pow10 (nth 0 (dt_x t) 0), pow10 (nth (dt_cols t - 1) (dt_x t) 0)) /\ back_as t (snd q).
Proof.
  intros GD L. destruct (c33_text_transposed_refuted GeV t GP GD L) as (rows & t' & lo & hi & A & B & C1 & C2 & C3 & C4 & C5 & -> & ->).
  exists (rows, t'). cbn [fst snd]. split; [exact A|]. split; [exact B|]. unfold back_as. auto.
Qed.
Lemma not_mine p g n : g <> sterile -> n = EmptyString \/ (exists c, n = tot_name c \/ n = diff_name c) -> forall q, q = (p ++ n)%string -> ~ mine p g q.
Proof.
  intros G N q -> M. apply mine_tail in M. destruct M as (m & E & c & M). apply app_inj in E. subst m.
  destruct g; try congruence; destruct N as [-> | (c' & [-> | ->])], M as [M | M]; destruct c; try destruct c'; discriminate M.
Qed.
End Write.

(** Tables fit to be written: totals with a spline, differentials with no more energies than fractions, everything from [lo] to [hi]
    except perhaps the first table of the muon and the tau flavour. *)
Definition fit (X : xsp) (lo hi : R) : Prop := forall g c, g <> sterile ->
  let t := f_tot (p_data X g) c in let u := f_diff (p_data X g) c in
  List.length (tt_x t) = List.length (tt_y t) /\ (exists s, tot_spline t = Ok s) /\ good_diff u /\ (dt_cols u <= dt_rows u)%nat /\
  (g = electron \/ c <> CCnu -> nth 0 (tt_x t) 0 = lo /\ nth (List.length (tt_x t) - 1) (tt_x t) 0 = hi) /\
  nth 0 (dt_x u) 0 = lo /\ nth (dt_cols u - 1) (dt_x u) 0 = hi.
Lemma permutation_flavors ord : Permutation ord [electron; muon; tau] -> NoDup ord /\ ~ In sterile ord /\ forall g, g <> sterile -> In g ord.
Proof.
  intros P. split; [|split].
  - apply (Permutation_NoDup (Permutation_sym P)). repeat constructor; cbn; intuition discriminate.
  - intros I. apply (Permutation_in _ P) in I. cbn in I. intuition discriminate.
  - intros g G. apply (Permutation_in _ (Permutation_sym P)). destruct g; cbn; tauto.
Qed.
(** Whatever other files there are, if there is no whole set under the prefix and no HDF5 file of its name, what is written as text, in
    whatever order of the flavours, is what a new object reads. *)
Theorem c101_write_read : forall GeV w ord X p f lo hi, 0 < GeV -> (forall q, w q = true) -> Permutation ord [electron; muon; tau] ->
  plain f p -> ~ whole_set f p -> fit X lo hi -> exists f' X', write_text GeV w ord X p f = Ok f' /\ construct GeV f' p = Ok X' /\
  p_Emin X' = pow10 lo /\ p_Emax X' = pow10 hi /\
  forall g c, g <> sterile -> f_tot (p_data X' g) c = f_tot (p_data X g) c /\ back_as (f_diff (p_data X g) c) (f_diff (p_data X' g) c).
Proof.
  intros GeV w ord X p f lo hi GP W PM P NW FIT. destruct (permutation_flavors ord PM) as (ND & NS & ALL).
  assert (CH : forall g c, exists q : list row3 * diff_tab, g <> sterile -> write2D GeV (f_diff (p_data X g) c) = Ok (fst q) /\
    read2D GeV (fst q) = Ok (snd q, pow10 lo, pow10 hi) /\ back_as (f_diff (p_data X g) c) (snd q)).
  { intros g c. destruct g; try (destruct (FIT electron c ltac:(discriminate)) as (_ & _ & GD & L & _ & <- & <-); destruct (back_exists GeV GP _ GD L) as (q & Q); exists q; intros _; exact Q);
    try (destruct (FIT muon c ltac:(discriminate)) as (_ & _ & GD & L & _ & <- & <-); destruct (back_exists GeV GP _ GD L) as (q & Q); exists q; intros _; exact Q);
    try (destruct (FIT tau c ltac:(discriminate)) as (_ & _ & GD & L & _ & <- & <-); destruct (back_exists GeV GP _ GD L) as (q & Q); exists q; intros _; exact Q).
    exists ([], DT [] [] 0 0 []). congruence. }
  assert (FN : exists h : flavor -> chan -> list row3 * diff_tab, forall g c, g <> sterile -> write2D GeV (f_diff (p_data X g) c) = Ok (fst (h g c)) /\
    read2D GeV (fst (h g c)) = Ok (snd (h g c), pow10 lo, pow10 hi) /\ back_as (f_diff (p_data X g) c) (snd (h g c))).
  { assert (ONE : forall g, exists k : chan -> list row3 * diff_tab, forall c, g <> sterile -> write2D GeV (f_diff (p_data X g) c) = Ok (fst (k c)) /\
      read2D GeV (fst (k c)) = Ok (snd (k c), pow10 lo, pow10 hi) /\ back_as (f_diff (p_data X g) c) (snd (k c))).
    { intros g. destruct (CH g CCnu) as (a & A), (CH g NCnu) as (b & B), (CH g CCnubar) as (c & C), (CH g NCnubar) as (d & D).
      exists (fun k => match k with CCnu => a | NCnu => b | CCnubar => c | NCnubar => d end). intros []; assumption. }
    destruct (ONE electron) as (a & A), (ONE muon) as (b & B), (ONE tau) as (c & C).
    exists (fun g => match g with electron => a | muon => b | _ => c end). intros g k G. destruct g; [apply A | apply B | apply C | congruence]; discriminate. }
  destruct FN as (h & H).
  destruct (write_text_ok GeV w X p (fun g c => fst (h g c)) W (fun g c G => proj1 (H g c G)) ord f ND NS) as (f' & E & A & B).
  assert (SAME : forall n, n = EmptyString \/ (exists c, n = tot_name c \/ n = diff_name c) -> f' (p ++ n)%string = f (p ++ n)%string).
  { intros n N. apply B. intros g I. apply (not_mine p g n); [intros ->; exact (NS I) | exact N | reflexivity]. }
  assert (PE : (p ++ EmptyString)%string = p) by (clear; induction p as [|x p IH]; cbn; [reflexivity | rewrite IH; reflexivity]).
  assert (P' : is_hdf f' p = false). { apply plain_hdf. unfold plain. pose proof (SAME EmptyString (or_introl eq_refl)) as S0. rewrite PE in S0. rewrite S0. exact P. }
  assert (W' : complete f' p = false).
  { apply complete_false. intros C. apply NW. intros c. specialize (C c). rewrite file_tot, file_diff in *.
    rewrite <- !SAME; [exact C | right; exists c; right; reflexivity | right; exists c; left; reflexivity]. }
  assert (CO : forall g, g <> sterile -> complete f' (flav_prefix p g) = true).
  { intros g G. apply complete_spec. intros c. rewrite file_tot, file_diff. destruct (A g c (ALL g G)) as (-> & ->). split; discriminate. }
  assert (RD : forall g er, g <> sterile -> (g = electron \/ er = Some (pow10 lo, pow10 hi)) -> (g = electron -> er = None) ->
    flavor_read GeV f' (flav_prefix p g) er (FD (f_tot (p_data X g)) (fun c => snd (h g c))) (pow10 lo, pow10 hi)).
  { intros g er G ER EE. assert (T : forall c, text1 GeV f' (flav_prefix p g ++ tot_name c) = Ok (f_tot (p_data X g) c, pow10 (nth 0 (tt_x (f_tot (p_data X g) c)) 0), pow10 (nth (List.length (tt_x (f_tot (p_data X g) c)) - 1) (tt_x (f_tot (p_data X g) c)) 0))).
    { intros c. rewrite (text1_cols GeV f' _ _ (proj1 (A g c (ALL g G)))). destruct (FIT g c G) as (L & (s & S0) & _). exact (c33_text_total GeV _ s GP L S0). }
    split; [|split].
    - exists (pow10 (nth 0 (tt_x (f_tot (p_data X g) CCnu)) 0)), (pow10 (nth (List.length (tt_x (f_tot (p_data X g) CCnu)) - 1) (tt_x (f_tot (p_data X g) CCnu)) 0)). split; [apply T|].
      destruct ER as [-> | ->].
      + rewrite (EE eq_refl). destruct (FIT electron CCnu G) as (_ & _ & _ & _ & K & _). destruct (K (or_introl eq_refl)) as (-> & ->). reflexivity.
      + rewrite settle_pos; [reflexivity|]. intros a b Q. injection Q as <- <-. split; apply pow10_pos.
    - intros c NC. cbn [f_tot fst snd]. rewrite T. destruct (FIT g c G) as (_ & _ & _ & _ & K & _). destruct (K (or_intror NC)) as (-> & ->). reflexivity.
    - intros c. cbn [f_diff fst snd]. rewrite (text2_cols GeV f' _ _ (proj2 (A g c (ALL g G)))). exact (proj1 (proj2 (H g c G))). }
  destruct (flavor_text_ok _ _ _ _ _ _ (RD electron None ltac:(discriminate) (or_introl eq_refl) (fun _ => eq_refl))) as (d1 & E1 & T1 & D1).
  destruct (flavor_text_ok _ _ _ _ _ _ (RD muon (Some (pow10 lo, pow10 hi)) ltac:(discriminate) (or_intror eq_refl) ltac:(discriminate))) as (d2 & E2 & T2 & D2).
  destruct (flavor_text_ok _ _ _ _ _ _ (RD tau (Some (pow10 lo, pow10 hi)) ltac:(discriminate) (or_intror eq_refl) ltac:(discriminate))) as (d3 & E3 & T3 & D3).
  exists f', (XSP (pow10 lo) (pow10 hi) (fun g => match g with electron => 0%nat | muon => 1%nat | _ => 2%nat end) (fun k => match k with O => d1 | 1%nat => d2 | _ => d3 end)).
  split; [exact E|]. split.
  { unfold construct. rewrite P'. unfold read_text. rewrite W', !CO by discriminate. cbn [andb]. rewrite E1. cbn [obind snd fst]. rewrite E2. cbn [obind snd fst]. rewrite E3. cbn [obind snd fst]. reflexivity. }
  split; [reflexivity|]. split; [reflexivity|]. intros g c G. destruct g; [| | |congruence]; unfold p_data at 1 4; cbn [p_ptr p_heap].
  - rewrite T1, D1. split; [reflexivity | exact (proj2 (proj2 (H electron c G)))].
  - rewrite T2, D2. split; [reflexivity | exact (proj2 (proj2 (H muon c G)))].
  - rewrite T3, D3. split; [reflexivity | exact (proj2 (proj2 (H tau c G)))].
Qed.
Print Assumptions c101_write_read.

(** Three flavours with tables from 1 to 100 eV, one row of files being all there is. *)
Definition ex_fit (muon_x : list R) : xsp := XSP (pow10 0) (pow10 2) (fun f => match f with muon => 1%nat | _ => 0%nat end)
  (fun k => match k with O => ex_fd | _ => FD (fun c => TT (match c with CCnu => muon_x | _ => [0; 1; 2] end) [7; 7; 7]) (fun _ => ex_dt) end).
Lemma ex_spline a y1 y2 y3 : 1 < a -> exists s, tot_spline (TT [0; 1; a] [y1; y2; y3]) = Ok s.
Proof. intros H. apply (proj1 (c16_constructor (lcol [0; 1; a]) (lcol [y1; y2; y3]) 3)). split; [lia | apply three_increasing; lra]. Qed.
Lemma ex_fits a : 1 < a -> fit (ex_fit [0; 1; a]) 0 2.
Proof.
  intros H g c G. cbv zeta. assert (GD : good_diff ex_dt) by (repeat split; try (cbn; lia); apply three_increasing; lra).
  assert (M : f_diff (p_data (ex_fit [0; 1; a]) g) c = ex_dt) by (destruct g; reflexivity). rewrite M.
  split; [destruct g, c; reflexivity|]. split; [destruct g, c; apply ex_spline; (exact H || lra)|]. split; [exact GD|]. split; [cbn; lia|]. split; [|split; reflexivity].
  intros [-> | N]; [split; reflexivity|]. destruct g, c; try congruence; split; reflexivity.
Qed.
Definition nothing : fs := fun _ => None.
Example c101_example_write : exists f' X', write_text 1 (fun _ => true) [tau; electron; muon] (ex_fit [0; 1; 2]) "xs/" nothing = Ok f' /\ construct 1 f' "xs/" = Ok X' /\
  p_Emax X' = pow10 2 /\ tt_y (f_tot (p_data X' muon) NCnu) = [7; 7; 7] /\ tt_y (f_tot (p_data X' tau) NCnu) = [3; 5; 4].
Proof.
  destruct (c101_write_read 1 (fun _ => true) [tau; electron; muon] (ex_fit [0; 1; 2]) "xs/" nothing 0 2) as (f' & X' & A & B & _ & C & D); try exact I; try lra; try reflexivity.
  - apply (Permutation_trans (l' := [electron; tau; muon])); [apply perm_swap | apply perm_skip, perm_swap].
  - intros K. exact (proj1 (K CCnu) eq_refl).
  - apply ex_fits. lra.
  - exists f', X'. split; [exact A|]. split; [exact B|]. split; [exact C|]. split; [rewrite (proj1 (D muon NCnu ltac:(discriminate))) | rewrite (proj1 (D tau NCnu ltac:(discriminate)))]; reflexivity.
Qed.
(** The range of the charged-current neutrino table of the muon and tau flavours is not compared with anything: an object said to
    cover 1 to 100 eV whose table of that flavour ends at any [a], say 1000 eV or 20 eV. *)
Theorem c101_first_table_refuted : forall a, 1 < a -> exists f X, construct 1 f "xs/" = Ok X /\ p_Emax X = pow10 2 /\ tt_x (f_tot (p_data X muon) CCnu) = [0; 1; a].
Proof.
  intros a H. destruct (c101_write_read 1 (fun _ => true) [electron; muon; tau] (ex_fit [0; 1; a]) "xs/" nothing 0 2) as (f' & X' & A & B & _ & C & D); try exact I; try lra; try reflexivity.
  - intros K. exact (proj1 (K CCnu) eq_refl).
  - apply ex_fits. exact H.
  - exists f', X'. split; [exact B|]. split; [exact C|]. rewrite (proj1 (D muon CCnu ltac:(discriminate))). reflexivity.
Qed.
Print Assumptions c101_first_table_refuted.

(** ** Files left over *)
Lemma wr1_frame GeV w d p f c f' : wr1 GeV w d p f c = Ok f' -> forall q, q <> (p ++ tot_name c)%string -> f' q = f q.
Proof. unfold wr1, put_if. destruct (w _); [|discriminate]. intros H q N. injection H as <-. unfold put. apply String.eqb_neq in N. rewrite N. reflexivity. Qed.
Lemma wr2_frame GeV w d p f c f' : wr2 GeV w d p f c = Ok f' -> forall q, q <> (p ++ diff_name c)%string -> f' q = f q.
Proof. unfold wr2. destruct (w _); [|discriminate]. intros H q N. apply obind_inv in H. destruct H as (rows & _ & H). injection H as <-. unfold put. apply String.eqb_neq in N. rewrite N. reflexivity. Qed.
Lemma write_flavor_frame GeV w d p f f' : write_flavor_text GeV w d p f = Ok f' -> forall q, (forall c, q <> (p ++ tot_name c)%string /\ q <> (p ++ diff_name c)%string) -> f' q = f q.
Proof.
  unfold write_flavor_text. intros H q N.
  do 7 (apply obind_inv in H; let g := fresh "g" in let E := fresh "E" in destruct H as (g & E & H)).
  apply wr2_frame with (q := q) in H, E3, E4, E5; try apply N. apply wr1_frame with (q := q) in E, E0, E1, E2; try apply N. congruence.
Qed.
Lemma write_text_frame GeV w X p : forall ord f f', write_text GeV w ord X p f = Ok f' -> forall q, (forall g, In g ord -> ~ mine p g q) -> f' q = f q.
Proof.
  induction ord as [|g ord IH]; intros f f' H q N; [injection H as <-; reflexivity|]. cbn [write_text] in H. apply obind_inv in H. destruct H as (f1 & E & H).
  rewrite (IH _ _ H) by (intros; apply N; right; assumption). apply (write_flavor_frame _ _ _ _ _ _ E). intros c. specialize (N g (or_introl eq_refl)). split; intros K; apply N; exists c; [left | right]; exact K.
Qed.
(** An HDF5 file of the name of the prefix, or a whole set of files under it, hides whatever is then written as text: a new object
    reads what it would have read before. *)
Theorem c101_left_over_refuted : forall GeV w ord X p f f', Permutation ord [electron; muon; tau] -> ~ plain f p \/ whole_set f p ->
  write_text GeV w ord X p f = Ok f' -> construct GeV f' p = construct GeV f p.
Proof.
  intros GeV w ord X p f f' PM OLD H. destruct (permutation_flavors ord PM) as (_ & NS & _).
  assert (SAME : forall n, n = EmptyString \/ (exists c, n = tot_name c \/ n = diff_name c) -> f' (p ++ n)%string = f (p ++ n)%string).
  { intros n N. apply (write_text_frame _ _ _ _ _ _ _ H). intros g I. apply (not_mine p g n); [intros ->; exact (NS I) | exact N | reflexivity]. }
  assert (PE : (p ++ EmptyString)%string = p) by (clear; induction p as [|x p IH]; cbn; [reflexivity | rewrite IH; reflexivity]).
  pose proof (SAME EmptyString (or_introl eq_refl)) as S0. rewrite PE in S0.
  assert (ST : forall c, f' (p ++ tot_name c)%string = f (p ++ tot_name c)%string) by (intros c; apply SAME; right; exists c; left; reflexivity).
  assert (SD : forall c, f' (p ++ diff_name c)%string = f (p ++ diff_name c)%string) by (intros c; apply SAME; right; exists c; right; reflexivity).
  unfold construct. assert (HD : is_hdf f' p = is_hdf f p) by (unfold is_hdf; rewrite S0; reflexivity). rewrite HD, S0.
  destruct (is_hdf f p) eqn:K; [reflexivity|]. destruct OLD as [OLD | OLD]; [apply plain_hdf in K; tauto|].
  unfold read_text. apply complete_spec in OLD. assert (C : complete f' p = complete f p) by (unfold complete, fexists; cbn [forallb]; rewrite !ST, !SD; reflexivity).
  rewrite C, OLD. unfold flavor_text, text1, text2, quickread_file. rewrite !ST, !SD. reflexivity.
Qed.
Print Assumptions c101_left_over_refuted.
(** So in a directory with common files, an object with other values, 7 for the muon flavour instead of 3, 5, 4, is written without
    complaint and a new object has the old values. *)
Example c101_example_left_over : exists f f' X', write_text 1 (fun _ => true) [electron; muon; tau] (ex_fit [0; 1; 2]) "xs/" f = Ok f' /\ construct 1 f' "xs/" = Ok X' /\
  tt_y (f_tot (p_data (ex_fit [0; 1; 2]) muon) CCnu) = [7; 7; 7] /\ tt_y (f_tot (p_data X' muon) CCnu) = [3; 5; 4].
Proof.
  assert (GD : good_diff ex_dt) by (repeat split; try (cbn; lia); apply three_increasing; lra).
  destruct (back_exists 1 Rlt_0_1 ex_dt GD ltac:(cbn; lia)) as ([rows t'] & W & R0 & _). cbn [fst snd] in W, R0.
  destruct (write_flavor_ok 1 (fun _ => true) ex_fd "xs/" nothing (fun _ => rows) (fun _ => eq_refl) (fun _ => W)) as (f & _ & A & B).
  assert (CO : whole_set f "xs/"). { intros c. rewrite file_tot, file_diff. destruct (A c) as (-> & ->). split; discriminate. }
  assert (PL : is_hdf f "xs/" = false). { unfold is_hdf. rewrite B; [reflexivity|]. intros c. split; destruct c; discriminate. }
  assert (T : forall c, text1 1 f ("xs/" ++ tot_name c) = Ok (ex_tt, pow10 0, pow10 2)).
  { intros c. rewrite (text1_cols 1 f _ _ (proj1 (A c))). destruct (ex_spline 2 3 5 4 ltac:(lra)) as (s & S0). exact (c33_text_total 1 ex_tt s Rlt_0_1 eq_refl S0). }
  destruct (flavor_text_ok 1 f "xs/" None (FD (fun _ => ex_tt) (fun _ => t')) (pow10 0, pow10 2)) as (d & FT & DT' & _).
  { split; [exists (pow10 0), (pow10 2); split; [apply T | reflexivity]|]. split; [intros c _; apply T|]. intros c. rewrite (text2_cols 1 f _ _ (proj2 (A c))). exact R0. }
  destruct (write_text_ok 1 (fun _ => true) (ex_fit [0; 1; 2]) "xs/" (fun _ _ => rows) (fun _ => eq_refl)) with (ord := [electron; muon; tau]) (f := f) as (f' & E & _ & _).
  - intros g c _. destruct g; exact W.
  - repeat constructor; cbn; intuition discriminate.
  - cbn; intuition discriminate.
  - exists f, f', (XSP (pow10 0) (pow10 2) (fun _ => 0%nat) (fun _ => d)). split; [exact E|]. split; [|split; [reflexivity|]].
    + rewrite (c101_left_over_refuted _ _ _ _ _ _ _ (Permutation_refl _) (or_intror CO) E). unfold construct. rewrite PL. unfold read_text. rewrite (proj2 (complete_spec f "xs/") CO), FT. reflexivity.
    + unfold p_data; cbn [p_heap p_ptr]. rewrite DT'. reflexivity.
Qed.

(** ** HDF5 files *)
Theorem c101_hdf : forall GeV f p F, f p = Some (H5 F) ->
  (forall en zs g X, ha_grid F = Some (en, zs) -> ha_common F = Some g -> construct GeV f p = Ok X ->
     (forall fl, tables_of en zs g (p_data X fl)) /\ (forall fl fl', p_ptr X fl = p_ptr X fl') /\ p_Emin X = pow10 (nth 0 en 0) /\ p_Emax X = pow10 (last en 0)) /\
  (forall en zs link obj X, ha_grid F = Some (en, zs) -> ha_common F = None -> ha_groups F = Some (link, obj) -> construct GeV f p = Ok X ->
     (forall fl, fl <> sterile -> tables_of en zs (obj (link fl)) (p_data X fl)) /\ p_Emin X = pow10 (nth 0 en 0) /\ p_Emax X = pow10 (last en 0)) /\
  (forall e en zs, ha_grid F = Some (e :: en, zs) -> ha_common F = None -> ha_groups F = None -> construct GeV f p = Throw RuntimeError) /\
  (ha_grid F = None -> construct GeV f p = Throw RuntimeError).
Proof.
  intros GeV f p F H. unfold construct, is_hdf. rewrite H. unfold read_h5.
  assert (LA : forall (e0 : R) es d, last (e0 :: es) d = last (e0 :: es) 0).
  { clear. intros e0 es d. revert e0. induction es as [|e es IH]; intro e0; [reflexivity|]. exact (IH e). }
  split; [|split; [|split]].
  - intros en zs g X -> -> K. destruct en as [|e0 es]; [discriminate|]. apply obind_inv in K. destruct K as (d & K & E). injection E as <-.
    split; [intros fl; exact (read_flav_inv _ _ _ _ K)|]. split; [reflexivity|]. split; [reflexivity|]. cbn [p_Emax]. f_equal. apply LA.
  - intros en zs link obj X -> -> -> K. apply c33_hdf_read in K. cbn [h_en h_zs h_obj h_link] in K. tauto.
  - intros e en zs -> -> ->. reflexivity.
  - intros ->. reflexivity.
Qed.
Print Assumptions c101_hdf.

(** ** V1 *)
(** If nothing has the name of the prefix, what is written as text is what is read. *)
Theorem c101_v1_write_read : forall GeV w T p f, (forall q, w q = true) -> f p = None -> (0 < v_n T)%nat -> exists T', v1_construct GeV (v1_write w T p f) p = Ok T' /\
  v_n T' = v_n T /\ v_Emin T' = exp (v_l T 0) * GeV /\ v_Emax T' = exp (v_l T (v_n T - 1)) * GeV /\
  (forall i, (i < v_n T)%nat -> v_l T' i = v_l T i) /\
  (forall cc t g i, g <> sterile -> (i < v_n T)%nat -> v_s T' cc t g i = v_s T cc t g i) /\
  (forall cc t g i j, g <> sterile -> (i < v_n T)%nat -> (j < v_n T)%nat -> v_d T' cc t g i j = v_d T cc t g i j).
Proof.
  intros GeV w T p f W N0 N. destruct (c33_v1_text GeV T N) as (T' & E & REST). exists T'. split; [|exact REST]. rewrite <- E.
  unfold v1_construct, v1_write, put_try. rewrite !W.
  assert (SELF : forall n, n <> EmptyString -> String.eqb p (p ++ n) = false).
  { intros n K. apply String.eqb_neq. intros Q. apply K. apply (app_self p). symmetry. exact Q. }
  unfold fexists at 1. unfold put at 1 2 3 4. rewrite !SELF by discriminate. rewrite N0.
  unfold v1_text, v1_names, fexists. cbn [forallb]. unfold put. rewrite !eqb_app. cbn [String.eqb Ascii.eqb Bool.eqb andb].
  assert (WS : forall cc, forallb (fun r => Nat.eqb (List.length r) (List.length (hd [] (v1_write_sigma T cc)))) (v1_write_sigma T cc) = true).
  { intros cc. apply forallb_forall. intros r Hr. unfold v1_write_sigma in *. destruct (v_n T) as [|n]; [lia|]. apply in_map_iff in Hr. destruct Hr as (i & <- & _). reflexivity. }
  assert (WD : forall cc, forallb (fun r => Nat.eqb (List.length r) (List.length (hd [] (v1_write_dsde T cc)))) (v1_write_dsde T cc) = true).
  { intros cc. apply forallb_forall. intros r Hr. unfold v1_write_dsde in *. destruct (v_n T) as [|n]; [lia|]. unfold grid2 in Hr. apply in_flat_map in Hr.
    destruct Hr as (i & _ & Hr). apply in_map_iff in Hr. destruct Hr as (j & <- & _). reflexivity. }
  unfold quickread_file. rewrite !eqb_app. cbn [String.eqb Ascii.eqb Bool.eqb andb]. rewrite !WS, !WD. cbn [obind]. reflexivity.
Qed.
Print Assumptions c101_v1_write_read.
Example c101_example_v1 : exists T', v1_construct 1 (v1_write (fun _ => true) ex_v1 "xs_" nothing) "xs_" = Ok T' /\ v_n T' = v_n ex_v1.
Proof. destruct (c101_v1_write_read 1 (fun _ => true) ex_v1 "xs_" nothing (fun _ => eq_refl) eq_refl) as (T' & A & B & _); [cbn; lia|]. exists T'. split; [exact A | exact B]. Qed.
(** A prefix that is a directory is taken for a file, whatever text files are in it. *)
Theorem c101_v1_directory_refuted : forall GeV w T p f, f p = Some Dir -> v1_construct GeV (v1_write w T p f) p = Throw RuntimeError.
Proof.
  intros GeV w T p f H. assert (K : v1_write w T p f p = Some Dir).
  { unfold v1_write, put_try. assert (SELF : forall n, n <> EmptyString -> String.eqb p (p ++ n) = false).
    { intros n K. apply String.eqb_neq. intros Q. apply K. apply (app_self p). symmetry. exact Q. }
    destruct (w _), (w _), (w _), (w _); unfold put; rewrite ?SELF by discriminate; exact H. }
  unfold v1_construct, fexists. rewrite K. reflexivity.
Qed.
Print Assumptions c101_v1_directory_refuted.
(** The current class reads text files from a directory. *)
Theorem c101_directory : forall GeV f p, f p = Some Dir -> construct GeV f p = read_text GeV f p.
Proof. intros GeV f p H. unfold construct, is_hdf. rewrite H. reflexivity. Qed.
Print Assumptions c101_directory.
(** Files that cannot be written go unnoticed. *)
Theorem c101_v1_silent_refuted : forall T p f, v1_write (fun _ => false) T p f = f.
Proof. reflexivity. Qed.
Print Assumptions c101_v1_silent_refuted.
Theorem c101_unwritable : forall GeV X p f g ord, write_text GeV (fun _ => false) (g :: ord) X p f = Throw RuntimeError.
Proof. reflexivity. Qed.
Print Assumptions c101_unwritable.

(** ** The default library: protons, neutrons and electrons, the first two from their files, nothing else. *)
Theorem c101_library : forall GeV f r,
  (forall l, default_library GeV f r = Ok l <-> exists P N, construct GeV f (proton_default r) = Ok P /\ construct GeV f (neutron_default r) = Ok N /\
     l = [(11, Some Glashow); (2112, Some (DisXs N)); (2212, Some (DisXs P))]%Z) /\
  (forall l t, default_library GeV f r = Ok l -> (has_target l t = true <-> t = 2212 \/ t = 2112 \/ t = 11)%Z).
Proof.
  intros GeV f r. assert (A : forall l, default_library GeV f r = Ok l <-> exists P N, construct GeV f (proton_default r) = Ok P /\ construct GeV f (neutron_default r) = Ok N /\
     l = [(11, Some Glashow); (2112, Some (DisXs N)); (2212, Some (DisXs P))]%Z).
  { intros l. unfold default_library. split.
    - intros H. apply obind_inv in H. destruct H as (P & EP & H). cbn in H. apply obind_inv in H. destruct H as (N & EN & H). exists P, N. split; [exact EP|]. split; [exact EN|]. cbn in H. congruence.
    - intros (P & N & -> & -> & ->). reflexivity. }
  split; [exact A|]. intros l t H. apply A in H. destruct H as (P & N & _ & _ & ->). unfold has_target. cbn [find_target].
  destruct (Z.eqb_spec t 11) as [->|]; [tauto|]. destruct (Z.eqb_spec t 2112) as [->|]; [tauto|]. destruct (Z.eqb_spec t 2212) as [->|]; [tauto|]. split; [discriminate | lia].
Qed.
Print Assumptions c101_library.
Example c101_example_library : default_library 1 nothing "data" = Throw RuntimeError.
Proof. reflexivity. Qed.
