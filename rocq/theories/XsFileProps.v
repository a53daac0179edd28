(** C33: cross-section tables written to a file and read back. *)
From Coq Require Import List Arith Reals Lra Lia Bool.
From Verif Require Import Err GridModel GridProofs AkimaModel BicubicModel TauModel XsModel XsFileModel AkimaBicubicProps XsProofs XsFileProofs XsProps.
Import ListNotations.
Local Open Scope R_scope.

(** ** HDF5 *)
(** All tables of all flavours on the same energies and fractions. *)
Definition same_coords (X : xsp) (en zs : list R) : Prop := forall f c, f <> sterile ->
  tt_x (f_tot (p_data X f) c) = en /\ length (tt_y (f_tot (p_data X f) c)) = length en /\
  dt_x (f_diff (p_data X f) c) = en /\ dt_y (f_diff (p_data X f) c) = zs /\ dt_rows (f_diff (p_data X f) c) = length zs /\ dt_cols (f_diff (p_data X f) c) = length en.
Definition rounded_tot (rnd : R -> R) (t : total_tab) : total_tab := TT (map rnd (tt_x t)) (map rnd (tt_y t)).
Definition rounded_diff (rnd : R -> R) (t : diff_tab) : diff_tab := DT (map rnd (dt_x t)) (map rnd (dt_y t)) (dt_rows t) (dt_cols t) (map rnd (dt_z t)).
Definition rounded (rnd : R -> R) (d d' : fdata) : Prop := forall c, f_tot d' c = rounded_tot rnd (f_tot d c) /\ f_diff d' c = rounded_diff rnd (f_diff d c).

Section Hdf.
Variable rnd : R -> R.
Variables en zs : list R.
Hypothesis square : length en = length zs.
Hypothesis three : (3 <= length en)%nat.
Hypothesis inc_en : strictly_increasing (lcol (map rnd en)) (length en).
Hypothesis inc_zs : strictly_increasing (lcol (map rnd zs)) (length zs).
Lemma read_total_ok v : length v = length en -> read_total (map rnd en) (map rnd v) = Ok tt.
Proof.
  intros H. unfold read_total. rewrite !map_length, H, Nat.eqb_refl. unfold tot_spline; cbn [tt_x tt_y]. rewrite map_length.
  destruct (proj1 (c16_constructor (lcol (map rnd en)) (lcol (map rnd v)) (length en))) as [s ->]; [split; assumption | reflexivity].
Qed.
Lemma read_diff_ok v : read_diff (map rnd en) (map rnd zs) (length zs, length en, v) = Ok tt.
Proof.
  unfold read_diff. rewrite !map_length, <- square, Nat.eqb_refl. cbn [negb]. unfold diff_interp; cbn [dt_x dt_y dt_rows dt_cols dt_z]. rewrite !map_length.
  destruct (proj1 (c17_constructor (fun j i => nth (j * length en + i) v 0) (length en) (length en) (lcol (map rnd en)) (length en) (lcol (map rnd zs)) (length zs) ltac:(lia) ltac:(lia))) as [b ->]; [|reflexivity].
  rewrite <- square in inc_zs. unfold good_grid. auto 8.
Qed.
Lemma read_flav_ok X f : same_coords X en zs -> f <> sterile -> exists d, read_flav (map rnd en) (map rnd zs) (write_flav rnd (p_data X f)) = Ok d /\ rounded rnd (p_data X f) d.
Proof.
  intros H F. unfold read_flav, write_flav; cbn [h_tot h_diff].
  assert (A : forall c, read_total (map rnd en) (map rnd (tt_y (f_tot (p_data X f) c))) = Ok tt) by (intros c; apply read_total_ok, (H f c F)).
  assert (B : forall c, read_diff (map rnd en) (map rnd zs) (dt_rows (f_diff (p_data X f) c), dt_cols (f_diff (p_data X f) c), map rnd (dt_z (f_diff (p_data X f) c))) = Ok tt).
  { intros c. destruct (H f c F) as (_ & _ & _ & _ & -> & ->). apply read_diff_ok. }
  rewrite !A, !B. cbn [obind]. eexists; split; [reflexivity|]. intros c; cbn [f_tot f_diff].
  destruct (H f c F) as (E1 & _ & E2 & E3 & _ & _). unfold rounded_tot, rounded_diff. rewrite E1, E2, E3. split; reflexivity.
Qed.
Lemma read_written X first : same_coords X en zs -> first <> sterile -> exists X', read_hdf (write_hdf rnd first X) = Ok X' /\
  p_Emin X' = pow10 (rnd (nth 0 en 0)) /\ p_Emax X' = pow10 (rnd (nth (length en - 1) en 0)) /\
  rounded rnd (p_data X electron) (p_data X' electron) /\ rounded rnd (p_data X electron) (p_data X' muon) /\
  rounded rnd (p_data X (if andb (negb (Nat.eqb (p_ptr X electron) (p_ptr X tau))) (negb (Nat.eqb (p_ptr X muon) (p_ptr X tau))) then tau else electron)) (p_data X' tau).
Proof.
  intros H F. destruct (read_flav_ok X electron H ltac:(discriminate)) as (de & RE & QE). destruct (read_flav_ok X tau H ltac:(discriminate)) as (dt & RT & QT).
  unfold write_hdf. destruct (H first CCnu F) as (_ & _ & EX & EY & _ & _). rewrite EX, EY.
  unfold read_hdf; cbn [h_en h_zs h_link h_obj orb].
  destruct (map rnd en) as [|e0 es] eqn:E; [destruct en; [cbn in three; lia | discriminate]|].
  assert (E0 : e0 = rnd (nth 0 en 0)) by (destruct en; [discriminate | cbn in E; injection E as <- _; reflexivity]).
  assert (E1 : last (e0 :: es) e0 = rnd (nth (length en - 1) en 0)).
  { rewrite last_nth, <- E, map_length. rewrite (nth_indep _ e0 (rnd 0)) by (rewrite map_length; lia). apply map_nth. }
  cbn [Nat.eqb]. rewrite RE. cbn [obind].
  destruct (Nat.eqb_spec (p_ptr X electron) (p_ptr X tau)) as [P|P]; cbn [negb andb Nat.eqb].
  - cbn [obind]. eexists; split; [reflexivity|]. unfold p_data at 2 4 6; cbn [p_Emin p_Emax p_ptr p_heap]. rewrite E0 at 1. rewrite E1. auto 6.
  - destruct (Nat.eqb_spec (p_ptr X muon) (p_ptr X tau)) as [Q|Q]; cbn [negb andb Nat.eqb].
    + cbn [obind]. eexists; split; [reflexivity|]. unfold p_data at 2 4 6; cbn [p_Emin p_Emax p_ptr p_heap]. rewrite E0 at 1. rewrite E1. auto 6.
    + rewrite RT. cbn [obind]. eexists; split; [reflexivity|]. unfold p_data at 2 4 6; cbn [p_Emin p_Emax p_ptr p_heap]. rewrite E0 at 1. rewrite E1. auto 6.
Qed.
End Hdf.

(** Tables with as many fractions as energies, equal muon and electron data and numbers that single precision keeps: the same cross sections. *)
Theorem c33_hdf_partial : forall rnd en zs X first, first <> sterile -> same_coords X en zs -> length en = length zs -> (3 <= length en)%nat ->
  strictly_increasing (lcol en) (length en) -> strictly_increasing (lcol zs) (length zs) ->
  p_Emin X = pow10 (nth 0 en 0) -> p_Emax X = pow10 (nth (length en - 1) en 0) ->
  (forall c, f_tot (p_data X muon) c = f_tot (p_data X electron) c /\ f_diff (p_data X muon) c = f_diff (p_data X electron) c) ->
  (forall f c v, f <> sterile -> In v en \/ In v zs \/ In v (tt_y (f_tot (p_data X f) c)) \/ In v (dt_z (f_diff (p_data X f) c)) -> rnd v = v) ->
  exists X', read_hdf (write_hdf rnd first X) = Ok X' /\ forall GeV tiny E1 E2 f t c,
    dis_total GeV tiny (xs_of X') E1 f t c = dis_total GeV tiny (xs_of X) E1 f t c /\ dis_single GeV tiny (xs_of X') E1 E2 f t c = dis_single GeV tiny (xs_of X) E1 E2 f t c.
Proof.
  intros rnd en zs X first F H SQ TH IE IZ LO HI MU FIX.
  assert (ME : map rnd en = en) by (rewrite <- (map_id en) at 2; apply map_ext_in; intros v Hv; apply (FIX electron CCnu); [discriminate | tauto]).
  assert (MZ : map rnd zs = zs) by (rewrite <- (map_id zs) at 2; apply map_ext_in; intros v Hv; apply (FIX electron CCnu); [discriminate | tauto]).
  destruct (read_written rnd en zs SQ TH) with (X := X) (first := first) as (X' & RD & EMIN & EMAX & RE & RM & RT); rewrite ?ME, ?MZ; try assumption.
  exists X'; split; [exact RD|].
  assert (SAME : forall g f, g <> sterile -> f <> sterile -> (forall c, f_tot (p_data X f) c = f_tot (p_data X g) c /\ f_diff (p_data X f) c = f_diff (p_data X g) c) -> rounded rnd (p_data X g) (p_data X' f) ->
     forall c, f_tot (p_data X' f) c = f_tot (p_data X f) c /\ f_diff (p_data X' f) c = f_diff (p_data X f) c).
  { intros g f G NF EQ RR c. destruct (RR c) as (-> & ->). destruct (EQ c) as (-> & ->). destruct (H g c G) as (A & _ & B & C & _). unfold rounded_tot, rounded_diff. rewrite A, B, C, ME, MZ.
    assert (Y : map rnd (tt_y (f_tot (p_data X g) c)) = tt_y (f_tot (p_data X g) c)) by (rewrite <- (map_id (tt_y _)) at 2; apply map_ext_in; intros v Hv; apply (FIX g c); tauto).
    assert (Z : map rnd (dt_z (f_diff (p_data X g) c)) = dt_z (f_diff (p_data X g) c)) by (rewrite <- (map_id (dt_z _)) at 2; apply map_ext_in; intros v Hv; apply (FIX g c); tauto).
    rewrite Y, Z. destruct (f_tot (p_data X g) c), (f_diff (p_data X g) c); cbn in *. subst. split; reflexivity. }
  assert (ALL : forall f, f <> sterile -> forall c, f_tot (p_data X' f) c = f_tot (p_data X f) c /\ f_diff (p_data X' f) c = f_diff (p_data X f) c).
  { intros f NF. destruct f; [| | |congruence].
    - apply (SAME electron); try discriminate; [split; reflexivity | exact RE].
    - apply (SAME electron); try discriminate; [exact MU | exact RM].
    - destruct (Nat.eqb_spec (p_ptr X electron) (p_ptr X tau)) as [P|P]; cbn [andb negb] in RT.
      + apply (SAME electron); try discriminate; [|exact RT]. unfold p_data. rewrite P. split; reflexivity.
      + destruct (Nat.eqb_spec (p_ptr X muon) (p_ptr X tau)) as [Q|Q]; cbn [andb negb] in RT.
        * apply (SAME electron); try discriminate; [|exact RT]. unfold p_data in *. rewrite <- Q. exact MU.
        * apply (SAME tau); try discriminate; [split; reflexivity | exact RT]. }
  assert (N0 : rnd (nth 0 en 0) = nth 0 en 0) by (apply (FIX electron CCnu); [discriminate | left; apply nth_In; lia]).
  assert (N1 : rnd (nth (length en - 1) en 0) = nth (length en - 1) en 0) by (apply (FIX electron CCnu); [discriminate | left; apply nth_In; lia]).
  intros GeV tiny E1 E2 f t c. assert (EM : p_Emin X' = p_Emin X) by congruence. assert (EX : p_Emax X' = p_Emax X) by congruence.
  destruct (is_sterile f) eqn:SF; [destruct f; try discriminate; split; reflexivity|]. assert (NF : f <> sterile) by (intros ->; discriminate).
  destruct (ALL f NF (chan_of t c)) as (AT & AD).
  assert (GF : forall Y, get_flavor (xs_of Y) f = Ok (p_data Y f)) by (intros Y; unfold get_flavor, xs_of; cbn; destruct f; congruence).
  split.
  - unfold dis_total. unfold xs_of at 1 2 4 5; cbn [x_Emin x_Emax]. rewrite EM, EX.
    assert (CO : forall E, dis_core (xs_of X') t f c E = dis_core (xs_of X) t f c E) by (intros E; unfold dis_core; rewrite !GF; cbn [obind]; rewrite AT; reflexivity).
    cbn [total_checks]. rewrite SF, !CO. reflexivity.
  - unfold dis_single, dis_single_core. rewrite !GF. cbn [obind]. rewrite AD. unfold xs_of; cbn [x_Emin x_Emax]. rewrite EM, EX. reflexivity.
Qed.
Print Assumptions c33_hdf_partial.
(** Muon tables are never written: whatever they were, reading gives those of the electron. *)
Theorem c33_hdf_muon_refuted : forall rnd X first X', read_hdf (write_hdf rnd first X) = Ok X' -> p_data X' muon = p_data X' electron.
Proof.
  intros rnd X first X'. unfold read_hdf, write_hdf; cbn [h_en h_zs h_link h_obj orb Nat.eqb].
  destruct (map rnd (dt_x (f_diff (p_data X first) CCnu))); [discriminate|].
  destruct (read_flav _ _ (write_flav rnd (p_data X electron))); [|discriminate|discriminate]. cbn [obind].
  match goal with |- obind ?o _ = _ -> _ => destruct o; [|discriminate|discriminate] end. cbn [obind]. intros H. injection H as <-. reflexivity.
Qed.
Print Assumptions c33_hdf_muon_refuted.
(** Tau tables shared with the muon and not with the electron come back as those of the electron too. *)
Theorem c33_hdf_tau_refuted : forall rnd X first X', p_ptr X tau = p_ptr X muon -> read_hdf (write_hdf rnd first X) = Ok X' -> p_data X' tau = p_data X' electron.
Proof.
  intros rnd X first X' E. unfold read_hdf, write_hdf; cbn [h_en h_zs h_link h_obj orb Nat.eqb].
  destruct (map rnd (dt_x (f_diff (p_data X first) CCnu))); [discriminate|].
  destruct (read_flav _ _ (write_flav rnd (p_data X electron))); [|discriminate|discriminate]. cbn [obind].
  rewrite E, Nat.eqb_refl. destruct (Nat.eqb (p_ptr X electron) (p_ptr X muon)); cbn [Nat.eqb obind]; intros H; injection H as <-; reflexivity.
Qed.
Print Assumptions c33_hdf_tau_refuted.
(** Tables with a different number of energies and fractions, which can be read from text and written, cannot be read back. *)
Theorem c33_hdf_shape_refuted : forall rnd en zs X first, first <> sterile -> same_coords X en zs -> (3 <= length en)%nat -> strictly_increasing (lcol (map rnd en)) (length en) ->
  length en <> length zs -> read_hdf (write_hdf rnd first X) = Throw RuntimeError.
Proof.
  intros rnd en zs X first F H TH IE NE. unfold write_hdf. destruct (H first CCnu F) as (_ & _ & EX & EY & _ & _). rewrite EX, EY.
  unfold read_hdf; cbn [h_en h_zs h_link h_obj orb].
  destruct (map rnd en) as [|e0 es] eqn:E; [destruct en; [cbn in TH; lia | discriminate]|]. rewrite <- E. cbn [Nat.eqb].
  assert (RE : read_flav (map rnd en) (map rnd zs) (write_flav rnd (p_data X electron)) = Throw RuntimeError).
  { unfold read_flav, write_flav; cbn [h_tot h_diff].
    assert (A : forall c, read_total (map rnd en) (map rnd (tt_y (f_tot (p_data X electron) c))) = Ok tt)
      by (intros c; apply read_total_ok; try assumption; [rewrite E; exact IE | apply (H electron c); discriminate]).
    rewrite !A. cbn [obind]. unfold read_diff at 1. destruct (H electron CCnu) as (_ & _ & _ & _ & -> & ->); [discriminate|].
    rewrite !map_length. rewrite (proj2 (Nat.eqb_neq (length zs) (length en))) by congruence. reflexivity. }
  rewrite RE. reflexivity.
Qed.
Print Assumptions c33_hdf_shape_refuted.
(** Numbers are stored in single precision, the energies included: what comes back is rounded. *)
Theorem c33_hdf_rounded_refuted : forall rnd en zs X first, first <> sterile -> same_coords X en zs -> length en = length zs -> (3 <= length en)%nat ->
  strictly_increasing (lcol (map rnd en)) (length en) -> strictly_increasing (lcol (map rnd zs)) (length zs) ->
  exists X', read_hdf (write_hdf rnd first X) = Ok X' /\ rounded rnd (p_data X electron) (p_data X' electron) /\ p_Emin X' = pow10 (rnd (nth 0 en 0)) /\ p_Emax X' = pow10 (rnd (nth (length en - 1) en 0)).
Proof.
  intros rnd en zs X first F H SQ TH IE IZ. destruct (read_written rnd en zs SQ TH IE IZ X first H F) as (X' & A & B & C & D & _). exists X'. auto.
Qed.
Print Assumptions c33_hdf_rounded_refuted.

Definition ex_fd2 : fdata := FD (fun _ => TT [0; 1; 2] [7; 7; 7]) (fun _ => ex_dt).
Definition ex_xsp (muon_ptr : nat) : xsp := XSP (pow10 0) (pow10 2) (fun f => match f with electron => 0%nat | muon => muon_ptr | _ => 0%nat end) (fun k => match k with O => ex_fd | _ => ex_fd2 end).
Lemma ex_xsp_coords k : same_coords (ex_xsp k) [0; 1; 2] [0; 1/2; 1].
Proof. intros f c F. destruct f; [| | |congruence]; try (repeat split; reflexivity). unfold p_data, ex_xsp; cbn [p_ptr p_heap]. destruct k; repeat split; reflexivity. Qed.
Example c33_example_hdf : exists X', read_hdf (write_hdf (fun v => v) electron (ex_xsp 0)) = Ok X' /\ forall GeV tiny E f t c, dis_total GeV tiny (xs_of X') E f t c = dis_total GeV tiny (xs_of (ex_xsp 0)) E f t c.
Proof.
  destruct (c33_hdf_partial (fun v => v) [0; 1; 2] [0; 1/2; 1] (ex_xsp 0) electron) as (X' & A & B); try discriminate; try reflexivity; try (cbn; lia); try (apply three_increasing; lra); try apply ex_xsp_coords; try (split; reflexivity).
  exists X'. split; [exact A|]. intros. exact (proj1 (B GeV tiny E E f t c)).
Qed.
(** Different muon tables: 10^7 at 10 eV becomes 10^5. *)
Example c33_example_muon : exists X', read_hdf (write_hdf (fun v => v) electron (ex_xsp 1)) = Ok X' /\
  nth 1 (tt_y (f_tot (p_data (ex_xsp 1) muon) CCnu)) 0 = 7 /\ nth 1 (tt_y (f_tot (p_data X' muon) CCnu)) 0 = 5.
Proof.
  destruct (read_written (fun v => v) [0; 1; 2] [0; 1/2; 1] eq_refl ltac:(cbn; lia)) with (X := ex_xsp 1) (first := electron) as (X' & A & _ & _ & _ & M & _);
    try discriminate; try apply ex_xsp_coords; try (rewrite map_id; apply three_increasing; lra).
  exists X'. split; [exact A|]. split; [reflexivity|]. destruct (M CCnu) as (-> & _). reflexivity.
Qed.

(** ** Text *)
Theorem c33_text_total : forall GeV t s, 0 < GeV -> length (tt_x t) = length (tt_y t) -> tot_spline t = Ok s ->
  read1D GeV (write1D GeV t) = Ok (t, pow10 (nth 0 (tt_x t) 0), pow10 (nth (length (tt_x t) - 1) (tt_x t) 0)).
Proof.
  intros GeV t s G L H. apply read1D_write1D; try assumption; [|exists s; exact H].
  intros E. unfold tot_spline in H. rewrite E in H. apply akima_inv in H. destruct H as (H & _). cbn in H; lia.
Qed.
Print Assumptions c33_text_total.
(** A well formed differential table. *)
Definition good_diff (t : diff_tab) : Prop :=
  dt_cols t = length (dt_x t) /\ dt_rows t = length (dt_y t) /\ length (dt_z t) = (dt_rows t * dt_cols t)%nat /\
  (3 <= dt_cols t)%nat /\ (3 <= dt_rows t)%nat /\ strictly_increasing (lcol (dt_x t)) (dt_cols t) /\ strictly_increasing (lcol (dt_y t)) (dt_rows t).
(** More energies than fractions: the writer reads past the table. *)
Theorem c33_text_bounds_refuted : forall GeV t, good_diff t -> (dt_rows t < dt_cols t)%nat -> write2D GeV t = UB.
Proof.
  intros GeV t (C & R & Z & C3 & R3 & _) L. apply (write2D_out GeV t (dt_rows t) 0); [lia | lia | rewrite Z; lia].
Qed.
Print Assumptions c33_text_bounds_refuted.
(** Otherwise the table read back has the element of energy i and fraction j taken from place i*columns+j of the table, instead of
    j*columns+i; in a square table energies and fractions are exchanged. The fractions become equally spaced. *)
Theorem c33_text_transposed_refuted : forall GeV t, 0 < GeV -> good_diff t -> (dt_cols t <= dt_rows t)%nat -> exists rows t' lo hi,
  write2D GeV t = Ok rows /\ read2D GeV rows = Ok (t', lo, hi) /\ dt_x t' = dt_x t /\ dt_rows t' = dt_rows t /\ dt_cols t' = dt_cols t /\
  (forall i j, (i < dt_cols t)%nat -> (j < dt_rows t)%nat -> nth (j * dt_cols t + i) (dt_z t') 0 = nth (i * dt_cols t + j) (dt_z t) 0) /\
  (forall j, (j < dt_rows t)%nat -> nth j (dt_y t') 0 = INR j / INR (dt_rows t - 1)) /\
  lo = pow10 (nth 0 (dt_x t) 0) /\ hi = pow10 (nth (dt_cols t - 1) (dt_x t) 0).
Proof.
  intros GeV t G (C & R & Z & C3 & R3 & IX & IY) L.
  assert (IN : forall i j, (i < length (dt_x t))%nat -> (j < length (dt_y t))%nat -> (i * dt_cols t + j < length (dt_z t))%nat).
  { intros i j Hi Hj. rewrite Z. rewrite <- C in Hi. rewrite <- R in Hj. nia. }
  pose proof (write2D_ok GeV t IN) as W. rewrite <- C, <- R in W.
  set (x := fun i => nth i (dt_x t) 0) in *. set (v := fun i j => nth (i * dt_cols t + j) (dt_z t) 0).
  assert (MX : map x (seq 0 (dt_cols t)) = dt_x t) by (apply list_eq_nth; [lia | reflexivity]).
  assert (YI : forall i j, (i < j)%nat -> (j < dt_rows t)%nat -> lcol (map (fun j => INR j / INR (dt_rows t - 1)) (seq 0 (dt_rows t))) i < lcol (map (fun j => INR j / INR (dt_rows t - 1)) (seq 0 (dt_rows t))) j).
  { intros i j A B. unfold lcol. rewrite !nth_map_seq by lia. apply Rmult_lt_compat_r; [apply Rinv_0_lt_compat, (lt_INR 0); lia | apply lt_INR; assumption]. }
  pose proof (read2D_rows GeV G (dt_cols t) (dt_rows t) x (fun j => nth j (dt_y t) 0) v ltac:(lia) ltac:(lia)) as RD.
  specialize (RD ltac:(specialize (IX 0%nat 1%nat ltac:(lia) ltac:(lia)); unfold lcol in IX; unfold x; lra)). cbv zeta in RD. rewrite MX in RD.
  assert (D : exists b, diff_interp (DT (dt_x t) (map (fun j => INR j / INR (dt_rows t - 1)) (seq 0 (dt_rows t))) (dt_rows t) (dt_cols t) (grid2 (dt_rows t) (dt_cols t) (fun i j => v j i))) = Ok b).
  { unfold diff_interp; cbn [dt_x dt_y dt_rows dt_cols dt_z]. rewrite map_length, seq_length, <- C.
    apply (proj1 (c17_constructor _ (dt_rows t) (dt_cols t) (lcol (dt_x t)) (dt_cols t) _ (dt_rows t) ltac:(lia) ltac:(lia))). unfold good_grid. auto 8. }
  specialize (RD D).
  eexists _, _, _, _. split; [exact W|]. split; [exact RD|]. cbn [dt_x dt_y dt_rows dt_cols dt_z]. repeat split.
  - intros i j Hi Hj. rewrite grid2_nth by assumption. reflexivity.
  - intros j Hj. apply (nth_map_seq (fun j => INR j / INR (dt_rows t - 1))). exact Hj.
Qed.
Print Assumptions c33_text_transposed_refuted.
(** In the example table the element of the highest energy and the middle fraction changes from 6 to 8. *)
Example c33_example_text : exists rows t' lo hi, write2D 1 ex_dt = Ok rows /\ read2D 1 rows = Ok (t', lo, hi) /\ nth (1 * 3 + 2) (dt_z ex_dt) 0 = 6 /\ nth (1 * 3 + 2) (dt_z t') 0 = 8.
Proof.
  destruct (c33_text_transposed_refuted 1 ex_dt) as (rows & t' & lo & hi & A & B & _ & _ & _ & D & _); [lra| |cbn; lia|].
  - repeat split; try (cbn; lia); apply three_increasing; lra.
  - exists rows, t', lo, hi. split; [exact A|]. split; [exact B|]. split; [reflexivity|]. apply (D 2%nat 1%nat); cbn; lia.
Qed.

(** ** V1 *)
Theorem c33_v1_text : forall GeV T, (0 < v_n T)%nat -> exists T', v1_read_text GeV (v1_write_sigma T true) (v1_write_sigma T false) (v1_write_dsde T true) (v1_write_dsde T false) = Ok T' /\
  v_n T' = v_n T /\ v_Emin T' = exp (v_l T 0) * GeV /\ v_Emax T' = exp (v_l T (v_n T - 1)) * GeV /\
  (forall i, (i < v_n T)%nat -> v_l T' i = v_l T i) /\
  (forall cc t f i, f <> sterile -> (i < v_n T)%nat -> v_s T' cc t f i = v_s T cc t f i) /\
  (forall cc t f i j, f <> sterile -> (i < v_n T)%nat -> (j < v_n T)%nat -> v_d T' cc t f i j = v_d T cc t f i j).
Proof.
  intros GeV T N.
  assert (LS : forall cc, length (v1_write_sigma T cc) = v_n T) by (intros; unfold v1_write_sigma; rewrite map_length, seq_length; reflexivity).
  assert (LD : forall cc, length (v1_write_dsde T cc) = (v_n T * v_n T)%nat) by (intros; apply grid2_length).
  assert (WS : forall cc, wide 7 (v1_write_sigma T cc) = true).
  { intros cc. unfold wide. apply forallb_forall. intros r Hr. unfold v1_write_sigma in Hr. apply in_map_iff in Hr. destruct Hr as (i & <- & _). reflexivity. }
  assert (WD : forall cc, wide 8 (v1_write_dsde T cc) = true).
  { intros cc. unfold wide. apply forallb_forall. intros r Hr. unfold v1_write_dsde, grid2 in Hr. apply in_flat_map in Hr. destruct Hr as (i & _ & Hr). apply in_map_iff in Hr. destruct Hr as (j & <- & _). reflexivity. }
  assert (RS : forall cc i k, (i < v_n T)%nat -> cell_at (v1_write_sigma T cc) i k = nth k (exp (v_l T i) :: six (fun t f => v_s T cc t f i)) 0).
  { intros cc i k Hi. unfold cell_at, v1_write_sigma. f_equal. rewrite (nth_indep _ [] ((fun i => exp (v_l T i) :: six (fun t f => v_s T cc t f i)) 0%nat)) by (rewrite map_length, seq_length; lia).
    rewrite (map_nth (fun i => exp (v_l T i) :: six (fun t f => v_s T cc t f i))), seq_nth by lia. reflexivity. }
  assert (RD : forall cc i j k, (i < v_n T)%nat -> (j < v_n T)%nat -> cell_at (v1_write_dsde T cc) (i * v_n T + j) k = nth k (exp (v_l T i) :: exp (v_l T j) :: six (fun t f => v_d T cc t f i j)) 0).
  { intros cc i j k Hi Hj. unfold cell_at, v1_write_dsde. rewrite grid2_nth by assumption. reflexivity. }
  unfold v1_read_text. cbv zeta. rewrite !LS, !LD, !WS, !WD, Nat.eqb_refl, Nat.leb_refl. cbn [negb andb]. rewrite (proj2 (Nat.eqb_neq (v_n T) 0)) by lia.
  eexists; split; [reflexivity|]. cbn [v_n v_l v_s v_d v_Emin v_Emax]. repeat split.
  - rewrite RS by lia. reflexivity.
  - rewrite RS by lia. reflexivity.
  - intros i Hi. rewrite RS by lia. cbn [nth]. apply ln_exp.
  - intros cc t f i F Hi. replace (if cc then v1_write_sigma T true else v1_write_sigma T false) with (v1_write_sigma T cc) by (destruct cc; reflexivity).
    rewrite RS by lia. destruct t, f; try congruence; reflexivity.
  - intros cc t f i j F Hi Hj. replace (if cc then v1_write_dsde T true else v1_write_dsde T false) with (v1_write_dsde T cc) by (destruct cc; reflexivity).
    rewrite RD by assumption. destruct t, f; try congruence; reflexivity.
Qed.
Print Assumptions c33_v1_text.
(** HDF5: the energies come back when they are equally spaced in the logarithm ... *)
Theorem c33_v1_hdf_partial : forall GeV T d, log_uniform GeV T d -> exists T', v1_hdf GeV T = Ok T' /\ v_n T' = v_n T /\ v_s T' = v_s T /\ v_d T' = v_d T /\ v_Emin T' = v_Emin T /\ v_Emax T' = v_Emax T /\
  forall i, (i < v_n T)%nat -> v_l T' i = v_l T i.
Proof.
  intros GeV T d (dpos & n2 & Gp & grid & lo & hi). unfold v1_hdf.
  assert (A : v_Emin T / GeV = exp (v_l T 0%nat)) by (rewrite lo; field; lra).
  assert (B : v_Emax T / GeV = exp (v_l T (v_n T - 1)%nat)) by (rewrite hi; field; lra).
  pose proof (exp_pos (v_l T 0%nat)). pose proof (exp_pos (v_l T (v_n T - 1)%nat)).
  destruct (logspace_nth (v_Emin T / GeV) (v_Emax T / GeV) (v_n T - 1)) as (l & Hl & Hlen & Hn); [lra | lra | lia |].
  replace (S (v_n T - 1)) with (v_n T) in * by lia. rewrite Hl. cbn [obind]. eexists; split; [reflexivity|]. cbn [v_n v_l v_s v_d v_Emin v_Emax]. repeat split.
  intros i Hi. specialize (Hn i ltac:(lia)). apply (nth_error_nth l i 0) in Hn. rewrite Hn, ln_exp, A, B, !ln_exp.
  rewrite (grid (v_n T - 1)%nat), (grid i) by lia. field. apply not_0_INR. lia.
Qed.
Print Assumptions c33_v1_hdf_partial.
(** ... and are replaced by such energies when they are not: only the range survives. *)
Theorem c33_v1_hdf_grid_refuted : forall GeV T, 0 < GeV -> v_n T = 3%nat -> v_Emin T = GeV * exp (v_l T 0%nat) -> v_Emax T = GeV * exp (v_l T 2%nat) ->
  exists T', v1_hdf GeV T = Ok T' /\ v_l T' 1%nat = (v_l T 0%nat + v_l T 2%nat) / 2.
Proof.
  intros GeV T Gp N lo hi. unfold v1_hdf. rewrite N.
  assert (A : v_Emin T / GeV = exp (v_l T 0%nat)) by (rewrite lo; field; lra).
  assert (B : v_Emax T / GeV = exp (v_l T 2%nat)) by (rewrite hi; field; lra).
  pose proof (exp_pos (v_l T 0%nat)). pose proof (exp_pos (v_l T 2%nat)).
  destruct (logspace_nth (v_Emin T / GeV) (v_Emax T / GeV) 2) as (l & Hl & Hlen & Hn); [lra | lra | lia |].
  rewrite Hl. cbn [obind]. eexists; split; [reflexivity|]. cbn [v_l].
  specialize (Hn 1%nat ltac:(lia)). apply (nth_error_nth l 1 0) in Hn. rewrite Hn, ln_exp, A, B, !ln_exp. simpl INR. field.
Qed.
Print Assumptions c33_v1_hdf_grid_refuted.
Example c33_example_v1 : exists T', v1_hdf 1 ex_v1 = Ok T' /\ v_l T' 1%nat = 1.
Proof.
  destruct (c33_v1_hdf_partial 1 ex_v1 1 ex_v1_uniform) as (T' & A & _ & _ & _ & _ & _ & B). exists T'; split; [exact A|]. rewrite B by (cbn; lia). reflexivity.
Qed.

(** ** Any file, whoever wrote it *)
(** The tables of a flavour are those of its group, all of the size of the grid. *)
Definition tables_of (en zs : list R) (g : h5flav) (d : fdata) : Prop := forall c,
  length (h_tot g c) = length en /\ f_tot d c = TT en (h_tot g c) /\
  fst (fst (h_diff g c)) = length en /\ snd (fst (h_diff g c)) = length zs /\
  f_diff d c = DT en zs (fst (fst (h_diff g c))) (snd (fst (h_diff g c))) (snd (h_diff g c)).
Lemma read_flav_inv en zs g d : read_flav en zs g = Ok d -> tables_of en zs g d.
Proof.
  unfold read_flav. intro H.
  assert (RT : forall c u, read_total en (h_tot g c) = Ok u -> length (h_tot g c) = length en).
  { intros c u. unfold read_total. destruct (Nat.eqb_spec (length (h_tot g c)) (length en)) as [E|]; [intros _; exact E|discriminate]. }
  assert (RD : forall c u, read_diff en zs (h_diff g c) = Ok u -> fst (fst (h_diff g c)) = length en /\ snd (fst (h_diff g c)) = length zs).
  { intros c u. unfold read_diff. destruct (h_diff g c) as [[r k] v]. cbn [fst snd].
    destruct (Nat.eqb_spec r (length en)); cbn [negb]; [|discriminate]. destruct (Nat.eqb_spec k (length zs)); cbn [negb]; [|discriminate]. intros _. split; assumption. }
  repeat match type of H with
  | obind (read_total en (h_tot g ?c)) _ = _ => let E := fresh "E" in destruct (read_total en (h_tot g c)) eqn:E; cbn [obind] in H; try discriminate; apply RT in E
  | obind (read_diff en zs (h_diff g ?c)) _ = _ => let E := fresh "E" in destruct (read_diff en zs (h_diff g c)) eqn:E; cbn [obind] in H; try discriminate; apply RD in E
  end.
  injection H as <-. intro c. cbn [f_tot f_diff].
  assert (D : forall t : nat * nat * list R, (let '(r, k, v) := t in DT en zs r k v) = DT en zs (fst (fst t)) (snd (fst t)) (snd t)) by (intros [[? ?] ?]; reflexivity).
  destruct c; repeat split; try apply D; tauto.
Qed.
(** Reading a file gives every flavour the tables of the group it is linked to, the same tables for two flavours
    exactly when they are linked to the same group; all tables of these groups have been checked. *)
Theorem c33_hdf_read : forall F X, read_hdf F = Ok X ->
  (forall f, f <> sterile -> tables_of (h_en F) (h_zs F) (h_obj F (h_link F f)) (p_data X f)) /\
  (forall f g, f <> sterile -> g <> sterile -> (p_ptr X f = p_ptr X g <-> h_link F f = h_link F g)) /\
  p_Emin X = pow10 (nth 0 (h_en F) 0) /\ p_Emax X = pow10 (last (h_en F) 0).
Proof.
  intros F X. unfold read_hdf. destruct (h_en F) as [|e0 es] eqn:EN; [discriminate|].
  destruct (read_flav (e0 :: es) (h_zs F) (h_obj F (h_link F electron))) as [de| |] eqn:DE; cbn [obind]; try discriminate.
  assert (TE := read_flav_inv _ _ _ _ DE).
  assert (LA : forall d, last (e0 :: es) d = last (e0 :: es) 0).
  { clear. intro d. revert e0. induction es as [|e es IH]; intro e0; [reflexivity|]. exact (IH e). }
  destruct (Nat.eqb_spec (h_link F muon) (h_link F electron)) as [ME|ME]; cbn [obind].
  - destruct (Nat.eqb_spec (h_link F tau) (h_link F electron)) as [TE'|TE'].
    + cbn [obind]. intro H. injection H as <-. cbn [p_ptr p_Emin p_Emax]. split; [|split; [|split; [reflexivity|f_equal; apply LA]]].
      * intros [] NS; try congruence; unfold p_data; cbn [p_ptr p_heap]; rewrite ?ME, ?TE'; exact TE.
      * intros [] [] N1 N2; try congruence; split; congruence.
    + destruct (Nat.eqb_spec (h_link F tau) (h_link F muon)) as [TM|TM]; [congruence|].
      destruct (read_flav (e0 :: es) (h_zs F) (h_obj F (h_link F tau))) as [dt| |] eqn:DT'; cbn [obind]; try discriminate.
      assert (TT' := read_flav_inv _ _ _ _ DT'). intro H. injection H as <-. cbn [p_ptr p_Emin p_Emax]. split; [|split; [|split; [reflexivity|f_equal; apply LA]]].
      * intros [] NS; try congruence; unfold p_data; cbn [p_ptr p_heap]; rewrite ?ME; assumption.
      * intros [] [] N1 N2; try congruence; split; congruence.
  - destruct (read_flav (e0 :: es) (h_zs F) (h_obj F (h_link F muon))) as [dm| |] eqn:DM; cbn [obind]; try discriminate.
    assert (TM := read_flav_inv _ _ _ _ DM).
    destruct (Nat.eqb_spec (h_link F tau) (h_link F electron)) as [TE'|TE'].
    + cbn [obind]. intro H. injection H as <-. cbn [p_ptr p_Emin p_Emax]. split; [|split; [|split; [reflexivity|f_equal; apply LA]]].
      * intros [] NS; try congruence; unfold p_data; cbn [p_ptr p_heap]; rewrite ?TE'; assumption.
      * intros [] [] N1 N2; try congruence; split; congruence.
    + destruct (Nat.eqb_spec (h_link F tau) (h_link F muon)) as [TM'|TM'].
      * cbn [obind]. intro H. injection H as <-. cbn [p_ptr p_Emin p_Emax]. split; [|split; [|split; [reflexivity|f_equal; apply LA]]].
        -- intros [] NS; try congruence; unfold p_data; cbn [p_ptr p_heap]; rewrite ?TM'; assumption.
        -- intros [] [] N1 N2; try congruence; split; congruence.
      * destruct (read_flav (e0 :: es) (h_zs F) (h_obj F (h_link F tau))) as [dt| |] eqn:DT'; cbn [obind]; try discriminate.
        assert (TT' := read_flav_inv _ _ _ _ DT'). intro H. injection H as <-. cbn [p_ptr p_Emin p_Emax]. split; [|split; [|split; [reflexivity|f_equal; apply LA]]].
        -- intros [] NS; try congruence; unfold p_data; cbn [p_ptr p_heap]; assumption.
        -- intros [] [] N1 N2; try congruence; split; congruence.
Qed.
Print Assumptions c33_hdf_read.
(** a file whose tau shares the group of the muon *)
Example c33_hdf_read_case : exists X, read_hdf (HX [0; 1; 2] [0; 1/2; 1] (fun f => match f with electron => 0%nat | _ => 1%nat end)
    (fun k => write_flav (fun v => v) (match k with O => ex_fd | _ => ex_fd2 end))) = Ok X /\
  p_ptr X tau = p_ptr X muon /\ p_ptr X tau <> p_ptr X electron /\ nth 1 (tt_y (f_tot (p_data X tau) CCnu)) 0 = 7.
Proof.
  assert (IE : strictly_increasing (lcol (map (fun v : R => v) [0; 1; 2])) 3) by (apply three_increasing; lra).
  assert (IZ : strictly_increasing (lcol (map (fun v : R => v) [0; 1/2; 1])) 3) by (apply three_increasing; lra).
  assert (TH : (3 <= 3)%nat) by lia.
  destruct (read_flav_ok (fun v => v) [0; 1; 2] [0; 1/2; 1] eq_refl TH IE IZ (ex_xsp 1) electron (ex_xsp_coords 1) ltac:(discriminate)) as (d0 & R0 & _).
  destruct (read_flav_ok (fun v => v) [0; 1; 2] [0; 1/2; 1] eq_refl TH IE IZ (ex_xsp 1) muon (ex_xsp_coords 1) ltac:(discriminate)) as (d1 & R1 & _).
  change (read_flav [0; 1; 2] [0; 1/2; 1] (write_flav (fun v => v) ex_fd) = Ok d0) in R0.
  change (read_flav [0; 1; 2] [0; 1/2; 1] (write_flav (fun v => v) ex_fd2) = Ok d1) in R1.
  eexists. split; [unfold read_hdf; cbn [h_en h_zs h_link h_obj Nat.eqb]; rewrite R0; cbn [obind]; rewrite R1; cbn [obind]; reflexivity|].
  cbn [p_ptr]. split; [reflexivity|]. split; [discriminate|]. unfold p_data. cbn [p_ptr p_heap]. destruct (read_flav_inv _ _ _ _ R1 CCnu) as (_ & -> & _). reflexivity.
Qed.
(** There are no data for sterile flavours: looking for them throws. *)
Theorem c33_sterile : forall GeV X t c E1 E2, get_flavor (xs_of X) sterile = Throw RuntimeError /\ dis_single_core GeV (xs_of X) t sterile c E1 E2 = Throw RuntimeError.
Proof. intros. split; reflexivity. Qed.
Print Assumptions c33_sterile.
(** A file without a row is refused ... *)
Theorem c33_empty : forall GeV, read1D GeV [] = Throw RuntimeError /\ read2D GeV [] = Throw RuntimeError.
Proof. intro GeV. split; reflexivity. Qed.
Print Assumptions c33_empty.
(** ... but not by V1, which reads the energies of its first and last row. *)
Theorem c33_v1_empty_refuted : forall GeV dCC dNC, v1_read_text GeV [] [] dCC dNC = UB.
Proof. reflexivity. Qed.
Print Assumptions c33_v1_empty_refuted.
