(** Proofs about the progress bar. *)
From Coq Require Import Reals List ZArith Bool Ascii Arith Lia Lra.
From Verif Require Import Err XsProofs IntModel XsModel StateModel StateProofs StateHistory StateLaws StateReady StateFrames StateProps StateRunProps ProgModel ProgSpec.
Import ListNotations.
Open Scope R_scope.

(** ** One line *)

Lemma draw_spec w n : (n <= w)%nat -> draw w (Z.of_nat n) =
  repeat "="%char n ++ (if Nat.ltb n w then ">"%char :: repeat " "%char (w - 1 - n) else []).
Proof.
  intro L. unfold draw.
  assert (A : forall k i, (i + k <= n)%nat -> map (fun i => if Z.ltb (Z.of_nat i) (Z.of_nat n) then "="%char
       else if Z.eqb (Z.of_nat i) (Z.of_nat n) then ">"%char else " "%char) (seq i k) = repeat "="%char k).
  { induction k as [|k IH]; intros i H; [reflexivity|]. cbn [seq map repeat].
    replace (Z.ltb (Z.of_nat i) (Z.of_nat n)) with true by (symmetry; apply Z.ltb_lt; lia).
    f_equal. apply IH. lia. }
  assert (B : forall k i, (n < i)%nat -> map (fun i => if Z.ltb (Z.of_nat i) (Z.of_nat n) then "="%char
       else if Z.eqb (Z.of_nat i) (Z.of_nat n) then ">"%char else " "%char) (seq i k) = repeat " "%char k).
  { induction k as [|k IH]; intros i H; [reflexivity|]. cbn [seq map repeat].
    replace (Z.ltb (Z.of_nat i) (Z.of_nat n)) with false by (symmetry; apply Z.ltb_ge; lia).
    replace (Z.eqb (Z.of_nat i) (Z.of_nat n)) with false by (symmetry; apply Z.eqb_neq; lia).
    f_equal. apply IH. lia. }
  replace w with (n + (w - n))%nat at 1 by lia. rewrite seq_app, map_app, A by lia. f_equal. cbn [plus].
  destruct (Nat.ltb_spec n w) as [H|H].
  - replace (w - n)%nat with (S (w - 1 - n)) by lia. cbn [seq map].
    rewrite Z.ltb_irrefl, Z.eqb_refl. f_equal. apply B. lia.
  - replace (w - n)%nat with 0%nat by lia. reflexivity.
Qed.

Lemma to_int_range r N : 0 <= r <= IZR N -> (N <= int_max)%Z ->
  exists z, to_int r = Some z /\ (0 <= z <= N)%Z /\ IZR z <= r < IZR z + 1.
Proof.
  intros (L & U) M. unfold to_int, rtrunc.
  replace (rle 0 r) with true by (symmetry; apply rle_true; exact L).
  destruct (base_Int_part r) as (A & B).
  assert (P : (0 <= Int_part r)%Z).
  { apply le_IZR. apply Rnot_lt_le. intro X. apply lt_IZR in X.
    assert (Y : (Int_part r <= -1)%Z) by lia. apply IZR_le in Y. lra. }
  assert (Q : (Int_part r <= N)%Z) by (apply le_IZR; lra).
  exists (Int_part r). cbv zeta.
  replace (- int_max - 1 <=? Int_part r)%Z with true by (symmetry; apply Z.leb_le; unfold int_max in *; lia).
  replace (Int_part r <=? int_max)%Z with true by (symmetry; apply Z.leb_le; lia).
  cbn [andb]. split; [reflexivity|]. split; [lia|]. lra.
Qed.

Lemma share_range t p : tr_ini t <> tr_fin t -> on_way t p -> 0 <= share t p <= 1.
Proof.
  intros N W. unfold share.
  assert (D : tr_fin t - tr_ini t <> 0) by lra.
  destruct W as [W|W].
  - assert (P : 0 < tr_fin t - tr_ini t) by lra. split.
    + apply Rmult_le_pos; [lra|apply Rlt_le, Rinv_0_lt_compat; lra].
    + apply (Rmult_le_reg_r (tr_fin t - tr_ini t)); [exact P|].
      unfold Rdiv. rewrite Rmult_assoc, Rinv_l, Rmult_1_r by exact D. lra.
  - assert (P : 0 < tr_ini t - tr_fin t) by lra.
    replace ((p - tr_ini t) / (tr_fin t - tr_ini t)) with ((tr_ini t - p) / (tr_ini t - tr_fin t)) by (field; lra).
    split.
    + apply Rmult_le_pos; [lra|apply Rlt_le, Rinv_0_lt_compat; lra].
    + apply (Rmult_le_reg_r (tr_ini t - tr_fin t)); [exact P|].
      unfold Rdiv. rewrite Rmult_assoc, Rinv_l, Rmult_1_r by lra. lra.
Qed.

Lemma bar_line t p : tr_ini t <> tr_fin t -> on_way t p ->
  exists l, progress_bar t p = Ok l /\ shows t p l /\ (0 <= l_percent l <= 100)%Z.
Proof.
  intros N W. pose proof (share_range t p N W) as (L & U). unfold progress_bar, shows.
  destruct (Req_EM_T (tr_fin t - tr_ini t) 0) as [X|X]; [exfalso; lra|].
  fold (share t p). cbv zeta.
  destruct (to_int_range (70 * share t p) 70) as (z & -> & Z1 & Z2); [split; lra|unfold int_max; lia|].
  destruct (to_int_range (share t p * 100) 100) as (q & -> & Q1 & Q2); [split; lra|unfold int_max; lia|].
  eexists. split; [reflexivity|]. cbn [l_bar l_percent]. split; [|exact Q1]. split; [|lra].
  exists (Z.to_nat z). split; [lia|]. split; [rewrite INR_IZR_INZ, Z2Nat.id by lia; exact Z2|].
  rewrite <- (Z2Nat.id z) at 1 by lia. rewrite draw_spec by lia. reflexivity.
Qed.

(** ** The looks of a call *)

Lemma look_off t c p : (c < int_max)%Z -> look t (Bar false c) p = Ok ([], Bar false (c + 1)).
Proof. intro L. unfold look. cbn [on count andb obind]. apply Z.ltb_lt in L. rewrite L. reflexivity. Qed.

Lemma looks_count t : forall ev b ls b', looks t b ev = Ok (ls, b') ->
  on b' = on b /\ count b' = (count b + Z.of_nat (length (positions ev)))%Z.
Proof.
  induction ev as [|a ev IH]; intros b ls b' E; cbn [looks] in E.
  - injection E as <- <-. cbn. split; [reflexivity|lia].
  - destruct a as [bd x p| | |]; [|exact (IH b ls b' E)|exact (IH b ls b' E)|exact (IH b ls b' E)].
    destruct (look t b p) as [[l b1]| |] eqn:L; try discriminate E. cbn [obind] in E.
    destruct (looks t b1 ev) as [[l' b2]| |] eqn:K; try discriminate E. cbn in E. injection E as <- <-.
    destruct (IH _ _ _ K) as (I1 & I2). unfold look in L.
    destruct (if on b && _ then _ else _) as [l0| |]; try discriminate L. cbn [obind] in L.
    destruct (Z.ltb (count b) int_max); [|discriminate L]. injection L as -> <-. cbn in I1, I2.
    split; [exact I1|]. unfold positions. cbn [flat_map app length]. fold (positions ev). lia.
Qed.

Lemma looks_off t : forall ev c, (c + Z.of_nat (length (positions ev)) <= int_max)%Z ->
  looks t (Bar false c) ev = Ok ([], Bar false (c + Z.of_nat (length (positions ev)))).
Proof.
  induction ev as [|a ev IH]; intros c L; cbn [looks].
  - cbn. rewrite Z.add_0_r. reflexivity.
  - destruct a as [bd x p| | |]; [|exact (IH c L)|exact (IH c L)|exact (IH c L)].
    unfold positions in *. cbn [flat_map app length] in *. fold (positions ev) in *.
    rewrite look_off by lia. cbn [obind]. rewrite IH by lia. cbn [obind app].
    do 3 f_equal. lia.
Qed.

Lemma hundredths_cons k p ps : hundredths k (p :: ps) =
  (if Nat.eqb (k mod 100) 0 then [p] else []) ++ hundredths (S k) ps.
Proof.
  unfold hundredths. cbn [length seq filter].
  assert (K : map (fun i => nth (i - k) (p :: ps) 0) (filter (fun i => Nat.eqb (i mod 100) 0) (seq (S k) (length ps)))
    = map (fun i => nth (i - S k) ps 0) (filter (fun i => Nat.eqb (i mod 100) 0) (seq (S k) (length ps)))).
  { apply map_ext_in. intros i I. apply filter_In in I. destruct I as (I & _). apply in_seq in I.
    replace (i - k)%nat with (S (i - S k)) by lia. reflexivity. }
  destruct (Nat.eqb (k mod 100) 0).
  - cbn [map app]. rewrite Nat.sub_diag. cbn [nth]. f_equal. exact K.
  - exact K.
Qed.

Lemma rem_mod k : Z.eqb (Z.rem (Z.of_nat k) 100) 0 = Nat.eqb (k mod 100) 0.
Proof.
  rewrite Z.rem_mod_nonneg by lia. change 100%Z with (Z.of_nat 100). rewrite <- Nat2Z.inj_mod.
  destruct (Nat.eqb_spec (k mod 100) 0) as [X|X]; [rewrite X; reflexivity|]. apply Z.eqb_neq. lia.
Qed.

Lemma looks_on t : tr_ini t <> tr_fin t -> forall ev k, Forall (on_way t) (positions ev) ->
  (Z.of_nat k + Z.of_nat (length (positions ev)) <= int_max)%Z ->
  exists ls, looks t (Bar true (Z.of_nat k)) ev = Ok (ls, Bar true (Z.of_nat k + Z.of_nat (length (positions ev)))) /\
    Forall2 (shows t) (hundredths k (positions ev)) ls.
Proof.
  intros N ev. induction ev as [|a ev IH]; intros k W L; cbn [looks].
  - exists []. cbn. rewrite Z.add_0_r. split; [reflexivity|constructor].
  - destruct a as [bd x p| | |]; [|exact (IH k W L)|exact (IH k W L)|exact (IH k W L)].
    unfold positions in *. cbn [flat_map app length] in *. fold (positions ev) in *.
    inversion W as [|? ? W1 W2]; subst. rewrite hundredths_cons.
    destruct (IH (S k) W2) as (ls & E & F); [lia|].
    destruct (bar_line t p N W1) as (l & B & Sh & _).
    exists ((if Nat.eqb (k mod 100) 0 then [l] else []) ++ ls). split.
    + unfold look. cbn [on count andb]. rewrite rem_mod.
      replace (Z.ltb (Z.of_nat k) int_max) with true by (symmetry; apply Z.ltb_lt; lia).
      replace (Z.of_nat k + 1)%Z with (Z.of_nat (S k)) by lia.
      replace (Z.of_nat k + Z.of_nat (S (length (positions ev))))%Z
        with (Z.of_nat (S k) + Z.of_nat (length (positions ev)))%Z by lia.
      destruct (Nat.eqb (k mod 100) 0); [rewrite B|]; cbn [obind]; rewrite E; reflexivity.
    + destruct (Nat.eqb (k mod 100) 0); cbn [app]; [constructor; assumption|exact F].
Qed.

(** ** Sessions *)

Lemma session_history e s0 h s b o : session e s0 h s b o -> history e s0 h s.
Proof. induction 1; [constructor|assumption|eapply h_call; eassumption]. Qed.

Lemma session_count e k s0 h s b o : made e k s0 -> session e s0 h s b o -> count b = Z.of_nat (looked h).
Proof.
  intro Mk. induction 1 as [|h s b o v H IH|h s b o c r s' ev ls b' H IH E U Sh]; [reflexivity|exact IH|].
  unfold looked. cbn [flat_map fst snd]. rewrite app_length. fold (looked h).
  pose proof (session_history _ _ _ _ _ _ H) as Hi.
  unfold shown in Sh. destruct (q_track s) as [t|] eqn:T.
  - destruct (looks t b ev) as [[l1 b1]| |] eqn:L; try discriminate Sh. cbn [obind] in Sh.
    destruct (looks_count t ev b l1 b1 L) as (_ & C).
    assert (K : b' = b1).
    { destruct c; try (injection Sh as <- <-; reflexivity).
      destruct r; try (injection Sh as <- <-; reflexivity).
      destruct (on b1); [|injection Sh as <- <-; reflexivity].
      destruct (progress_bar t (q_x s')) as [l| |]; try discriminate Sh. cbn in Sh. injection Sh as <- <-. reflexivity. }
    rewrite K, C, IH. lia.
  - injection Sh as <- <-.
    assert (Z : positions ev = []).
    { destruct (positions ev) as [|p ps] eqn:P; [reflexivity|exfalso].
      assert (I : In p (positions ev)) by (rewrite P; left; reflexivity).
      unfold positions in I. apply in_flat_map in I. destruct I as (a & I & A).
      destruct a as [bd x q| | |]; try contradiction.
      destruct (c48_queries e k s0 h s c r s' ev bd x q Mk Hi E I) as (_ & t & clk & _ & LT & _).
      rewrite (ag_track _ _ _ _ (history_agrees e k s0 h s Mk Hi)), LT in T. discriminate T. }
    rewrite Z, IH. cbn. lia.
Qed.

(** ** Where the looks of an evolution are *)

Lemma pre_derive_looks x s : Forall (fun a => match a with EvQuery _ y _ => y = x | _ => True end) (out_evs (pre_derive x s)).
Proof.
  unfold pre_derive, read. destruct (q_track s) as [t|]; [|constructor]. destruct (q_offset s) as [off|]; [|constructor].
  rewrite seq_eq. unfold modify. destruct (q_body s) as [b|]; [|constructor].
  rewrite seq_eq. unfold emit. rewrite seq_eq. set (s1 := set_q_x _ s).
  assert (K : Forall (fun a => match a with EvQuery _ y _ => y = x | _ => True end)
                (out_evs (when (o_int (q_opts s)) use_interactions s1))).
  { unfold when. destruct (o_int (q_opts s)); [|constructor].
    destruct (use_interactions_events s1) as (F & _). eapply Forall_impl; [|exact F]. intros []; cbn; tauto. }
  unfold when at 1. destruct (o_src (q_opts s)); [destruct (Nat.eqb _ _)|]; cbn [ret undef out_evs snd app].
  all: try (repeat constructor; fail).
  all: unfold out_evs in K; destruct (when (o_int (q_opts s)) use_interactions s1) as [[r s2] e2]; cbn in *;
       constructor; [reflexivity|exact K].
Qed.

Lemma meach_looks ts : forall s, Forall (fun a => match a with EvQuery _ y _ => In y ts | _ => True end)
  (out_evs (meach ts pre_derive s)).
Proof.
  induction ts as [|x ts IH]; intro s; cbn [meach]; [constructor|].
  rewrite seq_eq. pose proof (pre_derive_looks x s) as K.
  destruct (pre_derive x s) as [[r s1] e1]. cbn in K.
  assert (K1 : Forall (fun a => match a with EvQuery _ y _ => x = y \/ In y ts | _ => True end) e1).
  { eapply Forall_impl; [|exact K]. intros []; cbn; auto. }
  destruct r; [|exact K1|exact K1].
  specialize (IH s1). destruct (meach ts pre_derive s1) as [[r s2] e2]. cbn in *. apply Forall_app. split; [exact K1|].
  eapply Forall_impl; [|exact IH]. intros []; cbn; auto.
Qed.

Definition between (a b x : R) : Prop := a <= x <= b \/ b <= x <= a.
Definition seen (a b : R) (ev : event) : Prop := match ev with EvQuery _ x _ => between a b x | _ => True end.

Lemma evolve_seen e dt s s' ev : asks_inside e -> evolve e dt s = (Done, s', ev) ->
  Forall (seen (sq_t (q_sq s)) (sq_t (q_sq s) + dt)) ev /\
  (forall off, q_offset s = Some off -> exists x, between (sq_t (q_sq s)) (sq_t (q_sq s) + dt) x /\ q_x s' = x - off).
Proof.
  intros A E. unfold evolve, read in E. rewrite seq_eq in E. unfold emit in E.
  destruct (sq_num (q_sq s)) eqn:NM.
  - destruct (A s dt) as (NE & IN). destruct (e_solve e s dt) as [[[ts ok] t'] st]. cbn [fst] in NE, IN.
    rewrite seq_eq in E. pose proof (meach_looks ts s) as K.
    destruct (meach ts pre_derive s) as [[r s1] e1] eqn:M. cbn in K.
    destruct r; try discriminate E. destruct ok; [|discriminate E].
    cbn [modify app] in E. injection E as <- <-. split.
    + constructor; [exact I|]. rewrite app_nil_r. eapply Forall_impl; [|exact K].
      intros []; cbn; auto. intro X. exact (IN _ X).
    + intros off O. destruct (exists_last NE) as (l & a & ->).
      exists a. split; [apply IN, in_or_app; right; left; reflexivity|].
      change (q_x (put_sq_state st (put_sq_t (sq_t (q_sq s1) + dt) s1))) with (q_x s1). eapply meach_x; eassumption.
  - rewrite seq_eq in E. unfold modify, read in E. set (s1 := put_sq_t _ s) in E.
    pose proof (pre_derive_looks (sq_t (q_sq s1)) s1) as K.
    destruct (pre_derive (sq_t (q_sq s1)) s1) as [[r s2] e2] eqn:E2. cbn in K. cbn [app] in E. injection E as -> <- <-.
    assert (BB : between (sq_t (q_sq s)) (sq_t (q_sq s) + dt) (sq_t (q_sq s) + dt)).
    { unfold between. destruct (Rle_dec 0 dt); [left|right]; lra. }
    split.
    + constructor; [exact I|]. eapply Forall_impl; [|exact K]. intros []; cbn; auto. intros ->. exact BB.
    + intros off O. exists (sq_t (q_sq s) + dt). split; [exact BB|].
      change (q_offset s) with (q_offset s1) in O. rewrite (pre_derive_x _ _ _ _ off O E2). reflexivity.
Qed.

Lemma evolve_state_seen e b t off s s' ev : asks_inside e ->
  q_body s = Some b -> q_track s = Some t -> q_offset s = Some off ->
  evolve_state e s = (Done, s', ev) -> shortcut b s = true \/ o_pos (q_opts s) = false ->
  Forall (seen (sq_t (q_sq s)) (sq_t (q_sq s) + (tr_fin t - tr_ini t))) ev /\
  exists x, between (sq_t (q_sq s)) (sq_t (q_sq s) + (tr_fin t - tr_ini t)) x /\ q_x s' = x - off.
Proof.
  intros A B T O E SP. rewrite (evolve_state_eq e b t s B T) in E.
  destruct (has_all s); [|discriminate E].
  rewrite seq_eq in E. destruct (prep_cases e t s) as (r & s1 & P & U & D & _). rewrite P in E.
  destruct r; try discriminate E. specialize (D eq_refl).
  assert (T1 : sq_t (q_sq s1) = sq_t (q_sq s)).
  { change (sq_t (q_sq s1)) with (sq_t (q_sq (but_ints s1))). rewrite D. reflexivity. }
  assert (O1 : q_offset s1 = Some off).
  { change (q_offset s1) with (q_offset (but_ints s1)). rewrite D. exact O. }
  unfold tail_ in E. destruct (shortcut b s).
  - rewrite evolve_const_eq in E. set (s2 := put_o_basis BMass _) in E. rewrite seq_eq in E.
    destruct (evolve e _ s2) as [[r s3] e3] eqn:E3. destruct r; try discriminate E.
    unfold modify in E. cbn [app] in E. rewrite app_nil_r in E. injection E as <- <-.
    change (sq_t (q_sq s1)) with (sq_t (q_sq s2)) in T1. change (q_offset s1) with (q_offset s2) in O1.
    rewrite <- T1. destruct (evolve_seen e _ s2 s3 e3 A E3) as (F & G). split; [exact F|exact (G off O1)].
  - destruct SP as [SP|SP]; [discriminate SP|]. rewrite SP in E.
    destruct (evolve e _ s1) as [[r s2] e2] eqn:E2. injection E as -> <- <-.
    rewrite <- T1. destruct (evolve_seen e _ s1 s2 e2 A E2) as (F & G). split; [exact F|exact (G off O1)].
Qed.

(** ** How many looks there are *)

Lemma positions_app a b : positions (a ++ b) = positions a ++ positions b.
Proof. apply flat_map_app. Qed.

Lemma positions_none ev : Forall (fun a => match a with EvQuery _ _ _ => False | _ => True end) ev -> positions ev = [].
Proof.
  induction 1 as [|a ev A _ IH]; [reflexivity|]. unfold positions. cbn [flat_map]. fold (positions ev). rewrite IH.
  destruct a; [contradiction| | |]; reflexivity.
Qed.

Lemma pre_derive_one x s s' ev : pre_derive x s = (Done, s', ev) -> length (positions ev) = 1%nat.
Proof.
  unfold pre_derive, read. destruct (q_track s) as [t|]; [|discriminate]. destruct (q_offset s) as [off|]; [|discriminate].
  rewrite seq_eq. unfold modify. destruct (q_body s) as [b|]; [|discriminate].
  rewrite seq_eq. unfold emit. rewrite seq_eq. set (s1 := set_q_x _ s).
  assert (K : positions (out_evs (when (o_int (q_opts s)) use_interactions s1)) = []).
  { unfold when. destruct (o_int (q_opts s)); [|reflexivity]. apply positions_none.
    destruct (use_interactions_events s1) as (F & _). eapply Forall_impl; [|exact F]. intros []; cbn; tauto. }
  unfold out_evs in K.
  unfold when at 1. destruct (o_src (q_opts s)); [destruct (Nat.eqb _ _)|]; cbn [ret undef snd app]; try discriminate.
  all: intro E; destruct (when (o_int (q_opts s)) use_interactions s1) as [[r s2] e2]; cbn [snd] in K; cbn in E;
       injection E; intros EV _ _; rewrite <- EV;
       change (length (x - off :: positions e2) = 1%nat); rewrite K; reflexivity.
Qed.

Lemma meach_count ts : forall s s' ev, meach ts pre_derive s = (Done, s', ev) -> length (positions ev) = length ts.
Proof.
  induction ts as [|x ts IH]; intros s s' ev E; cbn [meach] in E; [injection E as <- <-; reflexivity|].
  rewrite seq_eq in E. destruct (pre_derive x s) as [[r s1] e1] eqn:P. destruct r; try discriminate E.
  destruct (meach ts pre_derive s1) as [[r s2] e2] eqn:M. injection E as -> <- <-.
  rewrite positions_app, app_length, (pre_derive_one _ _ _ _ P), (IH _ _ _ M). reflexivity.
Qed.

Lemma evolve_count e dt s s' ev : evolve e dt s = (Done, s', ev) -> sq_num (q_sq s) = true ->
  length (positions ev) = length (fst (fst (fst (e_solve e s dt)))).
Proof.
  intros E NM. unfold evolve, read in E. rewrite seq_eq in E. unfold emit in E. rewrite NM in E.
  destruct (e_solve e s dt) as [[[ts ok] t'] st]. rewrite seq_eq in E.
  destruct (meach ts pre_derive s) as [[r s1] e1] eqn:M. destruct r; try discriminate E.
  destruct ok; [|discriminate E]. cbn [modify app] in E. injection E as <- <-.
  unfold positions. cbn [flat_map app]. rewrite app_nil_r. exact (meach_count ts s _ _ M).
Qed.

Lemma looks_full t : forall ev c, (c <= int_max)%Z -> (int_max < c + Z.of_nat (length (positions ev)))%Z ->
  looks t (Bar false c) ev = UB.
Proof.
  induction ev as [|a ev IH]; intros c C L; cbn [looks].
  - exfalso. cbn [positions flat_map length] in L. lia.
  - destruct a as [bd x p| | |]; [|exact (IH c C L)|exact (IH c C L)|exact (IH c C L)].
    unfold positions in L. cbn [flat_map app length] in L. fold (positions ev) in L.
    destruct (Z.ltb_spec c int_max) as [X|X].
    + rewrite look_off by exact X. cbn [obind]. rewrite IH; [reflexivity|lia|lia].
    + unfold look. cbn [on count andb obind]. apply Z.ltb_ge in X. rewrite X. reflexivity.
Qed.

(** a history with the bar off *)
Lemma history_session e k s0 h s : made e k s0 -> history e s0 h s -> (Z.of_nat (looked h) <= int_max)%Z ->
  session e s0 h s (Bar false (Z.of_nat (looked h))) [].
Proof.
  intro Mk. induction 1 as [|h s c r s' ev H IH E U]; intro L; [constructor|].
  unfold looked in *. cbn [flat_map fst snd] in *. rewrite app_length in *. fold (looked h) in *.
  change (@nil line) with (@nil line ++ []). eapply ss_call; [apply IH; lia|exact E|exact U|].
  unfold shown. pose proof (history_agrees e k s0 h s Mk H) as A.
  destruct (q_track s) as [t|] eqn:T.
  - rewrite looks_off by lia. cbn [obind on]. destruct c; destruct r; do 3 f_equal; lia.
  - assert (Z : positions ev = []).
    { destruct (positions ev) as [|p ps] eqn:P; [reflexivity|exfalso].
      assert (I : In p (positions ev)) by (rewrite P; left; reflexivity).
      unfold positions in I. apply in_flat_map in I. destruct I as (a & I & X).
      destruct a as [bd x q| | |]; try contradiction.
      destruct (c48_queries e k s0 h s c r s' ev bd x q Mk H E I) as (_ & t & clk & _ & LT & _).
      rewrite (ag_track _ _ _ _ A), LT in T. discriminate T. }
    rewrite Z. cbn [length plus]. reflexivity.
Qed.

(** ** Witnesses *)

Lemma quiet_history e k s0 h s : made e k s0 -> history e s0 h s ->
  Forall (fun c => is_evolve c = false /\ c <> CHamiltonian) (calls_of h) -> looked h = 0%nat.
Proof.
  intro Mk. induction 1 as [|h s c r s' ev H IH E U]; intro F; [reflexivity|].
  cbn in F. inversion F as [|? ? (F1 & F2) F3]; subst.
  pose proof (other_events e c s (ag_wf _ _ _ _ (history_agrees e k s0 h s Mk H)) F1 F2) as Z.
  rewrite E in Z. cbn in Z. subst ev. unfold looked in *. cbn [flat_map fst snd positions app]. apply IH. exact F3.
Qed.

Lemma evolve_state_count e b t s s' ev : q_body s = Some b -> q_track s = Some t ->
  shortcut b s = false -> o_pos (q_opts s) = false -> sq_num (q_sq s) = true -> evolve_state e s = (Done, s', ev) ->
  exists s1 dt, length (positions ev) = length (fst (fst (fst (e_solve e s1 dt)))).
Proof.
  intros B T SC OP NM E. rewrite (evolve_state_eq e b t s B T) in E. destruct (has_all s); [|discriminate E].
  rewrite seq_eq in E. destruct (prep_cases e t s) as (r & s1 & P & U & D & _). rewrite P in E.
  destruct r; try discriminate E. specialize (D eq_refl). unfold tail_ in E. rewrite SC, OP in E.
  destruct (evolve e _ s1) as [[r s2] e2] eqn:E2. injection E as -> <- <-. eexists s1, _.
  eapply evolve_count; [exact E2|]. change (sq_num (q_sq s1)) with (sq_num (q_sq (but_ints s1))). rewrite D. exact NM.
Qed.
