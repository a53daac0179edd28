(** Facts about cross-section files. *)
From Coq Require Import List Arith Reals Lra Lia Bool.
From Verif Require Import Err GridModel GridProofs AkimaModel BicubicModel TauModel XsModel XsFileModel AkimaBicubicProps XsProofs.
Import ListNotations.
Local Open Scope R_scope.

Lemma ln10_pos : 0 < ln 10. Proof. rewrite <- ln_1; apply ln_increasing; lra. Qed.
Lemma pow10_pos x : 0 < pow10 x. Proof. unfold pow10, Rpower; apply exp_pos. Qed.
Lemma log10_pow10 x : log10 (pow10 x) = x.
Proof. unfold log10, pow10, Rpower. rewrite ln_exp. field. pose proof ln10_pos; lra. Qed.
Lemma pow10_inj x y : pow10 x = pow10 y -> x = y.
Proof. intros H; rewrite <- (log10_pow10 x), H; apply log10_pow10. Qed.

Lemma grid2_length {A : Type} r c (f : nat -> nat -> A) : length (grid2 r c f) = (r * c)%nat.
Proof.
  unfold grid2. generalize 0%nat at 2 as k. induction r as [|r IH]; intros k; cbn [seq flat_map]; [reflexivity|].
  rewrite app_length, map_length, seq_length, IH. lia.
Qed.
Lemma grid2_nth_from {A : Type} r c (f : nat -> nat -> A) d : forall k i j, (i < r)%nat -> (j < c)%nat ->
  nth (i * c + j) (flat_map (fun i => map (f i) (seq 0 c)) (seq k r)) d = f (k + i)%nat j.
Proof.
  induction r as [|r IH]; intros k i j Hi Hj; [lia|]. cbn [seq flat_map].
  destruct i as [|i].
  - rewrite app_nth1 by (rewrite map_length, seq_length; lia). cbn [Nat.mul Nat.add].
    rewrite (nth_indep _ d (f k 0%nat)) by (rewrite map_length, seq_length; lia). rewrite (map_nth (f k)), seq_nth by lia. f_equal; lia.
  - rewrite app_nth2; rewrite map_length, seq_length; [|lia].
    replace (S i * c + j - c)%nat with (i * c + j)%nat by lia. rewrite IH by lia. f_equal; lia.
Qed.
Lemma grid2_nth {A : Type} r c (f : nat -> nat -> A) d i j : (i < r)%nat -> (j < c)%nat -> nth (i * c + j) (grid2 r c f) d = f i j.
Proof. intros; unfold grid2; rewrite grid2_nth_from by assumption; reflexivity. Qed.
Lemma grid2_ext {A : Type} r c (f g : nat -> nat -> A) : (forall i j, (i < r)%nat -> (j < c)%nat -> f i j = g i j) -> grid2 r c f = grid2 r c g.
Proof.
  intros H. unfold grid2. assert (K : forall l, (forall i, In i l -> (i < r)%nat) -> flat_map (fun i => map (f i) (seq 0 c)) l = flat_map (fun i => map (g i) (seq 0 c)) l).
  { induction l as [|a l IH]; intros Hl; cbn [flat_map]; [reflexivity|]. rewrite IH by (intros; apply Hl; right; assumption). f_equal.
    apply map_ext_in. intros j Hj. apply in_seq in Hj. apply H; [apply Hl; left; reflexivity | lia]. }
  apply K. intros i Hi. apply in_seq in Hi. lia.
Qed.
Lemma grid2_In {A : Type} r c (f : nat -> nat -> A) i j : (i < r)%nat -> (j < c)%nat -> In (f i j) (grid2 r c f).
Proof. intros Hi Hj. unfold grid2. apply in_flat_map. exists i. split; [apply in_seq; lia | apply in_map, in_seq; lia]. Qed.

Lemma oseq_map {A B : Type} (g : A -> B) l : oseq (map (fun a => Ok (g a)) l) = Ok (map g l).
Proof. induction l as [|a l IH]; cbn [map oseq obind]; [reflexivity|]. rewrite IH. reflexivity. Qed.
Lemma oseq_Ok {A : Type} (l : list A) : oseq (map (fun a => Ok a) l) = Ok l.
Proof. rewrite (oseq_map (fun a => a)), map_id. reflexivity. Qed.
Lemma oseq_UB {A : Type} (l : list (outcome A)) : (forall o, In o l -> o = UB \/ exists a, o = Ok a) -> In UB l -> oseq l = UB.
Proof.
  induction l as [|o l IH]; intros H I; [destruct I|]. cbn [oseq].
  destruct (H o (or_introl eq_refl)) as [-> | [a ->]]; [reflexivity|]. cbn [obind].
  destruct I as [I|I]; [discriminate|]. rewrite IH; [reflexivity| |exact I]. intros; apply H; right; assumption.
Qed.
Lemma grid2_Ok {A : Type} r c (f : nat -> nat -> A) : grid2 r c (fun i j => Ok (f i j)) = map (fun a => Ok a) (grid2 r c f).
Proof.
  unfold grid2. induction (seq 0 r) as [|i l IH]; cbn [flat_map map]; [reflexivity|]. rewrite map_app, IH. f_equal. rewrite map_map. reflexivity.
Qed.

(** The number of leading rows of one energy. *)
Lemma z_loop_run e l rest : Forall (fun r => en3 r = e) l -> z_loop true e (l ++ rest) = (length l + z_loop true e rest)%nat.
Proof.
  induction 1 as [|r l H _ IH]; cbn [app z_loop length]; [reflexivity|].
  destruct (Req_EM_T (en3 r) e); [|contradiction]. cbn [andb]. rewrite H. rewrite IH. reflexivity.
Qed.
Lemma z_loop_first e l r rest : l <> [] -> Forall (fun r => en3 r = e) l -> en3 r <> e -> z_loop false 0 (l ++ r :: rest) = length l.
Proof.
  destruct l as [|a l]; intros N F D; [congruence|]. inversion F as [|? ? Ha Fl]; subst. cbn [app z_loop andb length].
  rewrite z_loop_run by assumption. cbn [z_loop]. destruct (Req_EM_T (en3 r) (en3 a)); [congruence|]. cbn [andb]. lia.
Qed.

Lemma nth_map_seq (g : nat -> R) n i : (i < n)%nat -> nth i (map g (seq 0 n)) 0 = g i.
Proof. intros H. rewrite (nth_indep _ 0 (g 0%nat)) by (rewrite map_length, seq_length; lia). rewrite map_nth, seq_nth by lia. f_equal. Qed.
Lemma list_eq_nth (l : list R) (g : nat -> R) n : length l = n -> (forall i, (i < n)%nat -> g i = nth i l 0) -> map g (seq 0 n) = l.
Proof.
  intros L H. apply nth_ext with 0 0; [rewrite map_length, seq_length; lia|]. intros i Hi. rewrite map_length, seq_length in Hi.
  rewrite nth_map_seq by assumption. apply H; assumption.
Qed.

Section Text.
Variable GeV : R.
Hypothesis GeVpos : 0 < GeV.
Lemma energy_back x : log10 (pow10 x / GeV * GeV) = x.
Proof. replace (pow10 x / GeV * GeV) with (pow10 x) by (field; lra). apply log10_pow10. Qed.

(** The rows written for a table whose entries are all there. *)
Lemma write2D_ok t : (forall i j, (i < length (dt_x t))%nat -> (j < length (dt_y t))%nat -> (i * dt_cols t + j < length (dt_z t))%nat) ->
  write2D GeV t = Ok (@grid2 row3 (length (dt_x t)) (length (dt_y t)) (fun i j => (pow10 (nth i (dt_x t) 0) / GeV, nth j (dt_y t) 0, pow10 (nth (i * dt_cols t + j) (dt_z t) 0)))).
Proof.
  intros H. unfold write2D. rewrite <- oseq_Ok, <- grid2_Ok. f_equal. apply grid2_ext. intros i j Hi Hj. cbv zeta.
  pose proof (H i j Hi Hj) as K. apply Nat.ltb_lt in K. rewrite K. reflexivity.
Qed.
Lemma write2D_out t i j : (i < length (dt_x t))%nat -> (j < length (dt_y t))%nat -> (length (dt_z t) <= i * dt_cols t + j)%nat -> write2D GeV t = UB.
Proof.
  intros Hi Hj H. unfold write2D. apply oseq_UB.
  - intros o Ho. unfold grid2 in Ho. apply in_flat_map in Ho. destruct Ho as (a & _ & Ho). apply in_map_iff in Ho. destruct Ho as (b & <- & _). cbv zeta.
    destruct (Nat.ltb _ _); [right; eexists; reflexivity | left; reflexivity].
  - assert (E : (if (i * dt_cols t + j <? length (dt_z t))%nat then Ok (pow10 (nth i (dt_x t) 0) / GeV, nth j (dt_y t) 0, pow10 (nth (i * dt_cols t + j) (dt_z t) 0)) else UB) = UB :> outcome row3).
    { apply Nat.ltb_ge in H. rewrite H. reflexivity. }
    rewrite <- E. exact (grid2_In _ _ (fun i j => if (i * dt_cols t + j <? length (dt_z t))%nat then Ok (pow10 (nth i (dt_x t) 0) / GeV, nth j (dt_y t) 0, pow10 (nth (i * dt_cols t + j) (dt_z t) 0)) else UB) i j Hi Hj).
Qed.

(** Reading rows ordered by energy. *)
Lemma read2D_rows ne nz (x : nat -> R) (y : nat -> R) (v : nat -> nat -> R) : (2 <= ne)%nat -> (1 <= nz)%nat -> x 0%nat <> x 1%nat ->
  let t := DT (map x (seq 0 ne)) (map (fun j => INR j / INR (nz - 1)) (seq 0 nz)) nz ne (grid2 nz ne (fun i j => v j i)) in
  (exists b, diff_interp t = Ok b) ->
  read2D GeV (@grid2 row3 ne nz (fun i j => (pow10 (x i) / GeV, y j, pow10 (v i j)))) = Ok (t, pow10 (x 0%nat), pow10 (x (ne - 1)%nat)).
Proof.
  intros Hne Hnz Hx t [b Hb]. set (f := (fun i j => (pow10 (x i) / GeV, y j, pow10 (v i j))) : nat -> nat -> row3). set (rows := grid2 ne nz f).
  assert (L : length rows = (ne * nz)%nat) by apply grid2_length.
  assert (Z : z_loop false 0 rows = nz).
  { unfold rows, grid2. destruct ne as [|[|m]]; try lia. cbn [seq flat_map]. destruct nz as [|k]; [lia|].
    set (A := map (f 0%nat) (seq 0 (S k))). cbn [seq map app].
    assert (NE : A <> []) by (unfold A; cbn; discriminate).
    rewrite (z_loop_first (pow10 (x 0%nat) / GeV)).
    - unfold A. rewrite map_length, seq_length. reflexivity.
    - exact NE.
    - unfold A. apply Forall_forall. intros r Hr. apply in_map_iff in Hr. destruct Hr as (j & <- & _). reflexivity.
    - unfold f, en3; cbn [fst]. intros E. apply Hx. apply pow10_inj.
      apply Rmult_eq_reg_r with (/ GeV); [unfold Rdiv in E; congruence | apply Rinv_neq_0_compat; lra]. }
  unfold read2D. cbv zeta. rewrite Z. rewrite L.
  rewrite (proj2 (Nat.eqb_neq nz 0)) by lia. rewrite Nat.div_mul by lia.
  rewrite (proj2 (Nat.eqb_neq nz (ne * nz))) by nia. rewrite Nat.eqb_refl. cbn [orb negb].
  assert (T : DT (map (fun j => log10 (en3 (nth (j * nz) rows zero3) * GeV)) (seq 0 ne)) (map (fun j => INR j / INR (nz - 1)) (seq 0 nz)) nz ne
    (grid2 nz ne (fun i j => log_or_tiny (snd (nth (j * nz + i) rows zero3)))) = t).
  { unfold t. f_equal.
    - apply map_ext_in. intros j Hj. apply in_seq in Hj. replace (j * nz)%nat with (j * nz + 0)%nat by lia. unfold rows. rewrite grid2_nth by lia.
      unfold f, en3; cbn [fst]. apply energy_back.
    - apply grid2_ext. intros i j Hi Hj. unfold rows. rewrite grid2_nth by lia. unfold f; cbn [snd]. unfold log_or_tiny.
      rewrite rlt_true by apply pow10_pos. apply log10_pow10. }
  rewrite T, Hb. cbn [obind].
  replace (nth 0 rows zero3) with (f 0%nat 0%nat) by (unfold rows; symmetry; exact (grid2_nth ne nz f zero3 0 0 ltac:(lia) ltac:(lia))).
  replace (nth (ne * nz - 1) rows zero3) with (f (ne - 1)%nat (nz - 1)%nat)
    by (unfold rows; replace (ne * nz - 1)%nat with ((ne - 1) * nz + (nz - 1))%nat by nia; symmetry; apply grid2_nth; lia).
  unfold f, en3; cbn [fst]. f_equal. f_equal; [f_equal|]; field; lra.
Qed.
Lemma last_nth {A : Type} (l : list A) d : last l d = nth (length l - 1) l d.
Proof.
  induction l as [|a [|b l] IH]; [reflexivity | reflexivity |]. change (last (a :: b :: l) d) with (last (b :: l) d). rewrite IH.
  cbn [length]. replace (S (S (length l)) - 1)%nat with (S (length l)) by lia. replace (S (length l) - 1)%nat with (length l) by lia. reflexivity.
Qed.
Lemma combine_fst {A B : Type} (l : list A) : forall m : list B, length l = length m -> map fst (combine l m) = l.
Proof. induction l as [|a l IH]; intros [|b m] H; cbn in *; try discriminate; [reflexivity|]. f_equal. apply IH. lia. Qed.
Lemma combine_snd {A B : Type} (l : list A) : forall m : list B, length l = length m -> map snd (combine l m) = m.
Proof. induction l as [|a l IH]; intros [|b m] H; cbn in *; try discriminate; [reflexivity|]. f_equal. apply IH. lia. Qed.
Lemma read1D_write1D t : length (tt_x t) = length (tt_y t) -> tt_x t <> [] -> (exists s, tot_spline t = Ok s) ->
  read1D GeV (write1D GeV t) = Ok (t, pow10 (nth 0 (tt_x t) 0), pow10 (nth (length (tt_x t) - 1) (tt_x t) 0)).
Proof.
  intros L N [s Hs]. unfold write1D. set (w := fun p : R * R => (pow10 (fst p) / GeV, pow10 (snd p))).
  assert (X : map (fun p => log10 (fst p * GeV)) (map w (combine (tt_x t) (tt_y t))) = tt_x t).
  { rewrite map_map. rewrite <- (combine_fst (tt_x t) (tt_y t) L) at 2. apply map_ext. intros p. unfold w; cbn [fst]. apply energy_back. }
  assert (Y : map (fun p => log10 (snd p)) (map w (combine (tt_x t) (tt_y t))) = tt_y t).
  { rewrite map_map. rewrite <- (combine_snd (tt_x t) (tt_y t) L) at 2. apply map_ext. intros p. unfold w; cbn [snd]. apply log10_pow10. }
  assert (T : TT (tt_x t) (tt_y t) = t) by (destruct t; reflexivity).
  destruct (map w (combine (tt_x t) (tt_y t))) as [|r rs] eqn:E.
  - exfalso. apply N. destruct (tt_x t), (tt_y t); cbn in *; try discriminate; reflexivity.
  - unfold read1D. rewrite X, Y, T, Hs. cbn [obind]. f_equal.
    assert (LW : length (r :: rs) = length (tt_x t)) by (rewrite <- E, map_length, combine_length; lia).
    assert (NW : forall i, (i < length (tt_x t))%nat -> fst (nth i (r :: rs) r) * GeV = pow10 (nth i (tt_x t) 0)).
    { intros i Hi. rewrite <- E. rewrite (nth_indep _ r (w (0, 0))) by (rewrite E; lia). rewrite map_nth. unfold w; cbn [fst].
      rewrite combine_nth by assumption. cbn [fst]. field. lra. }
    f_equal; [f_equal|].
    + apply (NW 0%nat). destruct (tt_x t); [congruence | cbn; lia].
    + rewrite last_nth, LW. apply NW. destruct (tt_x t); [congruence | cbn; lia].
Qed.
End Text.
