(** Properties of the progress bar (C97). *)
From Coq Require Import Reals List ZArith Bool Ascii Arith Lia Lra.
From Verif Require Import Err IntModel StateModel StateHistory StateLaws StateReady StateFrames StateProps StateRunProps ProgModel ProgSpec ProgProofs.
Import ListNotations.
Open Scope R_scope.

(** ** One line *)

(** Anywhere on a way of non-zero length, in either direction, the line shows the part of the way done. *)
Theorem c97_line t p : tr_ini t <> tr_fin t -> on_way t p ->
  exists l, progress_bar t p = Ok l /\ shows t p l /\ length (l_bar l) = 70%nat /\ (0 <= l_percent l <= 100)%Z.
Proof.
  intros N W. destruct (bar_line t p N W) as (l & E & Sh & P). exists l. split; [exact E|]. split; [exact Sh|]. split; [|exact P].
  destruct Sh as ((n & L & _ & ->) & _). rewrite app_length, repeat_length.
  destruct (Nat.ltb_spec n 70); cbn [length]; [rewrite repeat_length|]; lia.
Qed.

(** A line shows one thing only, and later lines show more. *)
Theorem c97_advance t p p' l l' : shows t p l -> shows t p' l' -> share t p <= share t p' ->
  (l_percent l <= l_percent l')%Z /\
  (count_occ ascii_dec (l_bar l) "="%char <= count_occ ascii_dec (l_bar l') "="%char)%nat.
Proof.
  intros ((n & N1 & N2 & N3) & P) ((n' & N1' & N2' & N3') & P') L. split.
  - assert (X : IZR (l_percent l) < IZR (l_percent l' + 1)) by (rewrite plus_IZR; lra). apply lt_IZR in X. lia.
  - assert (C : forall m, (m <= 70)%nat -> count_occ ascii_dec (repeat "="%char m ++
        (if Nat.ltb m 70 then ">"%char :: repeat " "%char (69 - m) else [])) "="%char = m).
    { intros m M. rewrite count_occ_app. rewrite count_occ_repeat_eq by reflexivity.
      assert (Z : forall j, count_occ ascii_dec (repeat " "%char j) "="%char = 0%nat)
        by (intro j; apply count_occ_repeat_neq; discriminate).
      destruct (Nat.ltb m 70); cbn [count_occ]; [|lia].
      destruct (ascii_dec ">" "="); [discriminate|]. rewrite Z. lia. }
    rewrite N3, N3', !C by assumption.
    assert (X : INR n < INR (S n')) by (rewrite S_INR; lra). apply INR_lt in X. lia.
Qed.

(** At the start nothing is done, at the end everything. *)
Theorem c97_ends t : tr_ini t <> tr_fin t ->
  progress_bar t (tr_ini t) = Ok (Line (">"%char :: repeat " "%char 69) 0) /\
  progress_bar t (tr_fin t) = Ok (Line (repeat "="%char 70) 100).
Proof.
  intro N. split.
  - destruct (bar_line t (tr_ini t) N) as (l & E & ((n & N1 & N2 & N3) & P) & _); [unfold on_way; lra|].
    assert (Sh : share t (tr_ini t) = 0) by (unfold share; field; lra). rewrite Sh in *.
    assert (n = 0%nat) by (destruct n as [|n]; [reflexivity|rewrite S_INR in N2; pose proof (pos_INR n); lra]). subst n.
    assert (Q : l_percent l = 0%Z).
    { assert (A : IZR (l_percent l) < IZR 1) by lra. apply lt_IZR in A.
      assert (B : IZR 0 < IZR (l_percent l + 1)) by (rewrite plus_IZR; lra). apply lt_IZR in B. lia. }
    rewrite E. destruct l as [lb lp]. cbn [l_bar l_percent] in *. subst. reflexivity.
  - destruct (bar_line t (tr_fin t) N) as (l & E & ((n & N1 & N2 & N3) & P) & _); [unfold on_way; lra|].
    assert (Sh : share t (tr_fin t) = 1) by (unfold share; field; lra). rewrite Sh in *.
    assert (M : n = 70%nat).
    { assert (X : INR 70 < INR (S n)) by (rewrite (S_INR n); replace (INR 70) with 70 by (rewrite INR_IZR_INZ; reflexivity); lra).
      apply INR_lt in X. lia. }
    subst n.
    assert (Q : l_percent l = 100%Z).
    { assert (A : IZR (l_percent l) < IZR 101) by lra. apply lt_IZR in A.
      assert (B : IZR 100 < IZR (l_percent l + 1)) by (rewrite plus_IZR; lra). apply lt_IZR in B. lia. }
    rewrite E. destruct l as [lb lp]. cbn [l_bar l_percent] in *. subst. reflexivity.
Qed.

Example c97_half : exists l, progress_bar back_ 1 = Ok l /\ l_percent l = 75%Z /\
  count_occ ascii_dec (l_bar l) "="%char = 52%nat.
Proof.
  destruct (c97_line back_ 1) as (l & E & ((n & N1 & N2 & N3) & P) & _); [cbn; lra|unfold on_way; cbn; lra|].
  exists l. split; [exact E|]. unfold share in *. cbn in P, N2.
  replace ((1 - 4) / (0 - 4)) with (3/4) in * by field. split.
  - assert (A : IZR (l_percent l) < IZR 76) by lra. apply lt_IZR in A.
    assert (B : IZR 74 < IZR (l_percent l)).
    { assert (X : IZR 75 < IZR (l_percent l + 1)) by (rewrite plus_IZR; lra). apply lt_IZR in X. apply IZR_lt. lia. }
    apply lt_IZR in B. lia.
  - assert (n = 52%nat).
    { assert (X : INR n < INR 53) by (replace (INR 53) with 53 by (rewrite INR_IZR_INZ; reflexivity); lra).
      assert (Y : INR 52 < INR (S n)) by (rewrite (S_INR n); replace (INR 52) with 52 by (rewrite INR_IZR_INZ; reflexivity); lra).
      apply INR_lt in X. apply INR_lt in Y. lia. }
    subst n. rewrite N3. reflexivity.
Qed.

(** ** The counter *)

(** Whatever was called, Get_DebugCounter is the number of looks at the medium since construction, shown or not. *)
Theorem c97_counter e k s0 h s b o : made e k s0 -> session e s0 h s b o ->
  history e s0 h s /\ count b = Z.of_nat (looked h).
Proof. intros Mk H. split; [exact (session_history _ _ _ _ _ _ H)|exact (session_count e k s0 h s b o Mk H)]. Qed.

(** ** What is printed *)

(** Switched off nothing is printed. *)
Theorem c97_off e k s0 h s b o c r s' ev : made e k s0 -> session e s0 h s b o -> on b = false ->
  exec e c s = (r, s', ev) -> (forall u, r <> Undef u) ->
  (Z.of_nat (looked h + length (positions ev)) <= int_max)%Z ->
  session e s0 ((c, r, ev, s') :: h) s' (Bar false (Z.of_nat (looked h + length (positions ev)))) o.
Proof.
  intros Mk H Off E U L. pose proof (session_count e k s0 h s b o Mk H) as C.
  destruct b as [v c0]. cbn in Off, C. subst v c0.
  assert (H' : session e s0 ((c, r, ev, s') :: h) s' (Bar false (Z.of_nat (looked h + length (positions ev)))) (o ++ []));
    [|rewrite app_nil_r in H'; exact H'].
  eapply ss_call; [exact H|exact E|exact U|]. unfold shown. destruct (q_track s) as [t|] eqn:T.
  - rewrite looks_off by lia. cbn [obind on]. destruct c; destruct r; do 3 f_equal; lia.
  - pose proof (session_history _ _ _ _ _ _ H) as Hi. pose proof (history_agrees e k s0 h s Mk Hi) as A.
    assert (Z : positions ev = []).
    { destruct (positions ev) as [|p ps] eqn:P; [reflexivity|exfalso].
      assert (I : In p (positions ev)) by (rewrite P; left; reflexivity).
      unfold positions in I. apply in_flat_map in I. destruct I as (a & I & X).
      destruct a as [bd x q| | |]; try contradiction.
      destruct (c48_queries e k s0 h s c r s' ev bd x q Mk Hi E I) as (_ & t & clk & _ & LT & _).
      rewrite (ag_track _ _ _ _ A), LT in T. discriminate T. }
    rewrite Z. cbn [length]. rewrite Nat.add_0_r. reflexivity.
Qed.

(** Switched on, a call whose looks are on the way prints a true line at every hundredth look since
    construction, and a successful evolution one more at the position it ends. *)
Theorem c97_call e k s0 h s b o c r s' ev t : made e k s0 -> session e s0 h s b o -> on b = true ->
  exec e c s = (r, s', ev) -> (forall u, r <> Undef u) ->
  last_track h = Some t -> tr_ini t <> tr_fin t -> Forall (on_way t) (positions ev) ->
  (c = CEvolve -> r = Done -> on_way t (q_x s')) ->
  (Z.of_nat (looked h + length (positions ev)) <= int_max)%Z ->
  exists ls fin, session e s0 ((c, r, ev, s') :: h) s' (Bar true (Z.of_nat (looked h + length (positions ev)))) (o ++ ls ++ fin) /\
    Forall2 (shows t) (hundredths (looked h) (positions ev)) ls /\
    (c = CEvolve -> r = Done -> exists l, fin = [l] /\ shows t (q_x s') l) /\
    (c <> CEvolve \/ r <> Done -> fin = []).
Proof.
  intros Mk H On E U LT N W WF L. pose proof (session_count e k s0 h s b o Mk H) as C.
  pose proof (session_history _ _ _ _ _ _ H) as Hi. pose proof (history_agrees e k s0 h s Mk Hi) as A.
  assert (T : q_track s = Some t) by (rewrite (ag_track _ _ _ _ A); exact LT).
  destruct b as [v c0]. cbn in On, C. subst v c0.
  destruct (looks_on t N ev (looked h) W) as (ls & Lk & F); [lia|].
  assert (D : (c = CEvolve /\ r = Done) \/ (c <> CEvolve \/ r <> Done)).
  { destruct c; try (right; left; discriminate). destruct r; [left; auto|right; right; discriminate|right; right; discriminate]. }
  exists ls. destruct D as [(-> & ->)|D].
  - destruct (bar_line t (q_x s') N (WF eq_refl eq_refl)) as (l & B & Sh & _).
    exists [l]. split; [|split; [exact F|split; [intros _ _; exists l; auto|intros [X|X]; contradiction]]].
    eapply ss_call; [exact H|exact E|exact U|]. unfold shown. rewrite T, Lk. cbn [obind on]. rewrite B. cbn [obind].
    do 3 f_equal. lia.
  - exists []. split; [|split; [exact F|split; [intros -> ->; destruct D; contradiction|reflexivity]]].
    rewrite app_nil_r. eapply ss_call; [exact H|exact E|exact U|]. unfold shown. rewrite T, Lk. cbn [obind].
    replace (Z.of_nat (looked h + length (positions ev))) with (Z.of_nat (looked h) + Z.of_nat (length (positions ev)))%Z by lia.
    destruct c; try reflexivity. destruct r; try reflexivity. destruct D; contradiction.
Qed.

(** An evolution from where the trajectory was tied to the clock stays on the way if the solver looks
    only between the ends of the step; the last line is the full bar if its last look is at the end.
    Partial: not with positivity enforced outside of the shortcut. *)
Theorem c97_evolution_partial e k s0 h s b o s' ev t : made e k s0 -> session e s0 h s b o -> on b = true ->
  anchor h = Some (t, sq_t (q_sq s)) -> tr_ini t <> tr_fin t -> o_pos (q_opts s) = false -> asks_inside e ->
  exec e CEvolve s = (Done, s', ev) ->
  (Z.of_nat (looked h + length (positions ev)) <= int_max)%Z ->
  exists ls l, session e s0 ((CEvolve, Done, ev, s') :: h) s' (Bar true (Z.of_nat (looked h + length (positions ev)))) (o ++ ls ++ [l]) /\
    Forall2 (shows t) (hundredths (looked h) (positions ev)) ls /\ shows t (q_x s') l /\
    Forall (fun m => (0 <= l_percent m <= 100)%Z) (ls ++ [l]) /\
    ((forall s1 dt, exists ts, fst (fst (fst (e_solve e s1 dt))) = ts ++ [sq_t (q_sq s1) + dt]) ->
       l = Line (repeat "="%char 70) 100).
Proof.
  intros Mk H On AN N OP AI E L. pose proof (session_history _ _ _ _ _ _ H) as Hi.
  pose proof (history_agrees e k s0 h s Mk Hi) as A.
  pose proof (ag_anchor _ _ _ _ A) as AG. rewrite AN in AG. destruct AG as (LT & O).
  pose proof (ag_track _ _ _ _ A) as T. rewrite LT in T.
  destruct (c43_success_complete _ _ _ _ _ _ _ Mk Hi E) as ((bd & B) & _).
  pose proof (ag_body _ _ _ _ A) as QB. rewrite B in QB.
  destruct (evolve_state_seen e bd t _ s s' ev AI QB T O E (or_intror OP)) as (Seen & x & Bx & Qx).
  assert (W : Forall (on_way t) (positions ev)).
  { apply Forall_forall. intros p I. unfold positions in I. apply in_flat_map in I. destruct I as (a & I & X).
    destruct a as [b0 y q| | |]; try contradiction. destruct X as [->|[]].
    rewrite Forall_forall in Seen. specialize (Seen _ I). cbn in Seen. unfold between in Seen.
    destruct (c48_queries e k s0 h s CEvolve Done s' ev b0 y p Mk Hi E I) as (_ & t1 & clk & AN1 & _ & ->).
    rewrite AN in AN1. injection AN1 as <- <-. unfold on_way. lra. }
  assert (WX : on_way t (q_x s')) by (unfold between in Bx; unfold on_way; rewrite Qx; lra).
  destruct (c97_call e k s0 h s b o CEvolve Done s' ev t Mk H On E) as (ls & fin & H' & F & G & _);
    [discriminate|exact LT|exact N|exact W|intros _ _; exact WX|exact L|].
  destruct (G eq_refl eq_refl) as (l & -> & Sh). exists ls, l. split; [exact H'|]. split; [exact F|]. split; [exact Sh|].
  assert (PR : forall p m, on_way t p -> shows t p m -> (0 <= l_percent m <= 100)%Z).
  { intros p m Wp (_ & P). pose proof (share_range t p N Wp) as (S1 & S2). split.
    - assert (X : IZR 0 < IZR (l_percent m + 1)) by (rewrite plus_IZR; lra). apply lt_IZR in X. lia.
    - apply le_IZR. lra. }
  split.
  - apply Forall_app. split; [|constructor; [exact (PR _ _ WX Sh)|constructor]].
    assert (WH : Forall (on_way t) (hundredths (looked h) (positions ev))).
    { apply Forall_forall. intros p I. unfold hundredths in I. apply in_map_iff in I. destruct I as (i & <- & I).
      apply filter_In in I. destruct I as (I & _). apply in_seq in I. rewrite Forall_forall in W. apply W.
      apply nth_In. lia. }
    clear - PR F WH. induction F as [|p m ps ms X F IH]; [constructor|]. inversion WH; subst. constructor; eauto.
  - intro SV. assert (Q : q_x s' = tr_fin t) by (eapply c48_end_partial; try eassumption; intros; apply SV).
    rewrite Q in Sh. destruct (c97_ends t N) as (_ & FE).
    destruct (bar_line t (tr_fin t) N) as (l2 & E2 & Sh2 & _); [unfold on_way; lra|]. rewrite FE in E2. injection E2 as <-.
    clear - Sh Sh2. destruct Sh as ((n & N1 & N2 & N3) & P), Sh2 as ((n2 & M1 & M2 & M3) & P2).
    assert (n = n2).
    { assert (X : INR n < INR (S n2)) by (rewrite S_INR; lra). assert (Y : INR n2 < INR (S n)) by (rewrite S_INR; lra).
      apply INR_lt in X. apply INR_lt in Y. lia. }
    subst n2. destruct l as [lb lp]. cbn [l_bar l_percent] in N3, M3, P, P2.
    rewrite <- M3 in N3. subst lb.
    assert (X : IZR lp < IZR (100 + 1)) by (rewrite plus_IZR; lra). assert (Y : IZR 100 < IZR (lp + 1)) by (rewrite plus_IZR; lra).
    apply lt_IZR in X. apply lt_IZR in Y. f_equal. lia.
Qed.

(** an object ready to evolve, whose bar is switched on *)
Lemma ready_session e b t v : (3 <= e_maxdim e)%nat -> exists s0 h s, made e true s0 /\ all_done h /\
  calls_of h = [CInit3 2 2 3 v BFlavor; CTrack (Some t); CBody (Some b)] /\ looked h = 0%nat /\
  ready e [1; 2] 3 false None b t s /\ anchor h = Some (t, sq_t (q_sq s)) /\
  forall on_, session e s0 h s (Bar on_ 0) [].
Proof.
  intro MD. destruct (ready_exists e [1; 2] 3 false None b t v) as (s0 & h & s & Mk & H & R & C & D);
    [lia|cbn; lia|discriminate|].
  assert (Z : looked h = 0%nat).
  { eapply quiet_history; [exact Mk|exact H|]. unfold calls_of. rewrite C. repeat constructor; discriminate. }
  exists s0, h, s. split; [exact Mk|]. split; [exact D|]. split; [exact C|]. split; [exact Z|]. split; [exact R|].
  open_ready R. split.
  - unfold calls_of in C. inversion H as [|h1 s1 c r s2 ev H1 E U]; subst; [discriminate C|].
    cbn in C. injection C as -> C. inversion D as [|? ? D1 _]; subst. cbn in D1. subst r.
    destruct (c48_tied e true s0 h1 s1 _ Done s ev Mk H1 E eq_refl) as (_ & X).
    destruct (X eq_refl) as (t' & T & Y). rewrite Y. f_equal. f_equal.
    pose proof (ag_track _ _ _ _ (history_agrees _ _ _ _ _ Mk H)) as Q.
    rewrite R10 in Q. cbn in Q. destruct (history_agrees _ _ _ _ _ Mk H1) as [? ? ? G ? ? ? ?]. congruence.
  - intro v'. pose proof (history_session e true s0 h s Mk H) as HS. rewrite Z in HS.
    specialize (HS ltac:(unfold int_max; lia)). exact (ss_switch e s0 h s _ [] v' HS).
Qed.

Lemma wenv_inside : asks_inside wenv.
Proof.
  intros s dt. cbn. split; [discriminate|]. intros x [<-|[]]. destruct (Rle_dec 0 dt); [left|right]; lra.
Qed.

Lemma wenv_one b t s s' ev : q_body s = Some b -> q_track s = Some t -> shortcut b s = false ->
  o_pos (q_opts s) = false -> sq_num (q_sq s) = true -> exec wenv CEvolve s = (Done, s', ev) -> length (positions ev) = 1%nat.
Proof.
  intros B T SC OP NM E. destruct (evolve_state_count wenv b t s s' ev B T SC OP NM E) as (s1 & dt & X). exact X.
Qed.

(** one look: the line of the first look, then the full bar *)
Example c97_nonvacuous : exists s0 h s, made wenv true s0 /\ all_done h /\
  calls_of h = [CEvolve; CInit3 2 2 3 v0 BFlavor; CTrack (Some back_); CBody (Some earth)] /\
  exists m, (0 <= l_percent m <= 100)%Z /\ session wenv s0 h s (Bar true 1) [m; Line (repeat "="%char 70) 100].
Proof.
  destruct (ready_session wenv earth back_ v0) as (s0 & h & s & Mk & D & C & Z & R0 & AN & Ss); [cbn; lia|].
  pose proof (ready_able _ _ _ _ _ _ _ R0) as A. open_ready R0.
  destruct (able_evolve wenv _ _ _ _ wenv_ok A) as (s1 & ev1 & E1 & _).
  pose proof (wenv_one earth back_ s s1 ev1 (ab_body _ _ _ _ A) (ab_track _ _ _ _ A) eq_refl) as N1.
  rewrite R7, R6 in N1. specialize (N1 eq_refl eq_refl E1).
  destruct (c97_evolution_partial wenv true s0 h s (Bar true 0) [] s1 ev1 back_) as (ls & l & Sn & F & _ & Pc & Last);
    try assumption; try reflexivity.
  - exact (Ss true).
  - cbn. lra.
  - rewrite R7. reflexivity.
  - exact wenv_inside.
  - rewrite Z, N1. unfold int_max. lia.
  - assert (P : exists p, positions ev1 = [p]).
    { destruct (positions ev1) as [|p [|q ps]]; try discriminate N1. exists p. reflexivity. }
    destruct P as (p & P). rewrite Z, P in F. cbn in F. inversion F as [|? m ? ms X Y]; subst. inversion Y; subst.
    rewrite Last in Sn by (intros; exists []; reflexivity). rewrite Z, N1 in Sn.
    exists s0, ((CEvolve, Done, ev1, s1) :: h), s1. split; [exact Mk|]. split; [constructor; [reflexivity|exact D]|].
    split; [unfold calls_of in *; cbn [map fst]; rewrite C; reflexivity|].
    exists m. split; [inversion Pc; assumption|exact Sn].
Qed.

(** ** What goes wrong *)

(** Evolving twice along the same trajectory ends with 200 percent. *)
Theorem c97_again_refuted : exists s0 h s b o, made wenv true s0 /\ session wenv s0 h s b o /\ all_done h /\
  calls_of h = [CEvolve; CEvolve; CInit3 2 2 3 v0 BFlavor; CTrack (Some fwd); CBody (Some earth)] /\
  exists lb, o = [Line lb 200].
Proof.
  destruct (ready_session wenv earth fwd v0) as (s0 & h & s & Mk & D & C & Z & R0 & AN & Ss); [cbn; lia|].
  pose proof (ready_able _ _ _ _ _ _ _ R0) as A. open_ready R0.
  destruct (able_evolve wenv _ _ _ _ wenv_ok A) as (s1 & ev1 & E1 & A1 & C1 & _ & NM1 & SW1 & _).
  pose proof (wenv_one earth fwd s s1 ev1 (ab_body _ _ _ _ A) (ab_track _ _ _ _ A) eq_refl) as N1.
  rewrite R7, R6 in N1. specialize (N1 eq_refl eq_refl E1).
  pose proof (c97_off wenv true s0 h s (Bar false 0) [] CEvolve Done s1 ev1 Mk (Ss false) eq_refl E1) as S1.
  rewrite Z, N1 in S1. specialize (S1 ltac:(discriminate) ltac:(unfold int_max; lia)). cbn [plus] in S1.
  change (Z.of_nat 1) with 1%Z in S1.
  destruct (able_evolve wenv _ _ _ _ wenv_ok A1) as (s2 & ev2 & E2 & A2 & _).
  assert (OP : o_pos (q_opts s1) = false).
  { destruct (ab_pos _ _ _ _ A1) as [X|X]; [discriminate X|exact X]. }
  assert (NT : sq_num (q_sq s1) = true).
  { rewrite NM1. unfold step_num. cbn. rewrite R6. reflexivity. }
  pose proof (wenv_one earth fwd s1 s2 ev2 (ab_body _ _ _ _ A1) (ab_track _ _ _ _ A1) eq_refl OP NT E2) as N2.
  cbn [exec] in E2.
  destruct (evolve_state_done wenv earth fwd 0 s1 s2 ev2 (ab_body _ _ _ _ A1) (ab_track _ _ _ _ A1) (ab_offset _ _ _ _ A1) E2
     (or_intror OP)) as (_ & X2).
  assert (Q : q_x s2 = 8).
  { rewrite X2; [rewrite C1, R6; cbn; lra|]. right. intros s3 _ _. exists []. reflexivity. }
  assert (PB : exists lb, progress_bar fwd 8 = Ok (Line lb 200)).
  { unfold progress_bar. destruct (Req_EM_T _ _) as [X|_]; [cbn in X; lra|]. cbn [tr_ini tr_fin fwd].
    replace ((8 - 0) / (4 - 0)) with (IZR 2) by field. rewrite <- !mult_IZR. rewrite !to_int_IZR by (unfold int_max; lia).
    eexists. reflexivity. }
  destruct PB as (lb & PB).
  eexists s0, ((CEvolve, Done, ev2, s2) :: (CEvolve, Done, ev1, s1) :: h), s2, _, _. split; [exact Mk|]. split; [|split; [|split]].
  - eapply ss_call; [exact (ss_switch _ _ _ _ _ _ true S1)|exact E2|discriminate|].
    unfold shown. rewrite (ab_track _ _ _ _ A1).
    assert (Lk : looks fwd (Bar true 1) ev2 = Ok ([], Bar true 2)).
    { clear - N2. revert N2. induction ev2 as [|a ev IH]; [discriminate|].
      destruct a as [bd x p| | |]; [|exact IH|exact IH|exact IH].
      unfold positions. cbn [flat_map app length]. fold (positions ev). intro N2. injection N2 as N2.
      cbn [looks]. change (look fwd (Bar true 1) p) with (Ok (@nil line, Bar true 2)). cbn [obind].
      assert (W : forall ev b, length (positions ev) = 0%nat -> looks fwd b ev = Ok ([], b)).
      { clear. induction ev as [|a ev IH]; intros b X; [reflexivity|].
        destruct a as [bd x p| | |]; [discriminate X|exact (IH b X)|exact (IH b X)|exact (IH b X)]. }
      rewrite (W ev _ N2). reflexivity. }
    cbn [count]. rewrite Lk. cbn [obind on]. rewrite Q, PB. cbn [obind]. reflexivity.
  - constructor; [reflexivity|]. constructor; [reflexivity|exact D].
  - unfold calls_of in *. cbn [map fst]. rewrite C. reflexivity.
  - exists lb. reflexivity.
Qed.

(** A trajectory of no length makes the bar undefined at the end of any evolution. *)
Theorem c97_zero_length_refuted : exists s0 h s s' ev, made wenv true s0 /\ session wenv s0 h s (Bar true 0) [] /\
  all_done h /\ calls_of h = [CInit3 2 2 3 v0 BFlavor; CTrack (Some (Track 1 1)); CBody (Some earth)] /\
  exec wenv CEvolve s = (Done, s', ev) /\ shown CEvolve (q_track s) Done ev (q_x s') (Bar true 0) = UB.
Proof.
  destruct (ready_session wenv earth (Track 1 1) v0) as (s0 & h & s & Mk & D & C & Z & R0 & AN & Ss); [cbn; lia|].
  pose proof (ready_able _ _ _ _ _ _ _ R0) as A. open_ready R0.
  destruct (able_evolve wenv _ _ _ _ wenv_ok A) as (s1 & ev1 & E1 & _).
  exists s0, h, s, s1, ev1. split; [exact Mk|]. split; [exact (Ss true)|]. split; [exact D|]. split; [exact C|].
  split; [exact E1|]. rewrite (ab_track _ _ _ _ A). unfold shown.
  assert (PB : forall x, progress_bar (Track 1 1) x = UB).
  { intro x. unfold progress_bar. destruct (Req_EM_T _ _) as [_|X]; [reflexivity|exfalso; apply X; cbn; lra]. }
  destruct (looks (Track 1 1) (Bar true 0) ev1) as [[ls b1]| |] eqn:L; cbn [obind].
  - destruct (looks_count _ _ _ _ _ L) as (O & _). rewrite O. cbn [on]. rewrite PB. reflexivity.
  - exfalso. revert L. generalize (Bar true 0). clear - PB. induction ev1 as [|a ev IH]; intros b L; [discriminate L|].
    cbn [looks] in L. destruct a as [bd x p| | |]; [|exact (IH b L)|exact (IH b L)|exact (IH b L)].
    unfold look in L. destruct (on b && Z.eqb (Z.rem (count b) 100) 0)%bool; [rewrite PB in L; discriminate L|].
    cbn [obind] in L. destruct (Z.ltb (count b) int_max); [|discriminate L]. cbn [obind] in L.
    destruct (looks (Track 1 1) (Bar (on b) (count b + 1)) ev) as [[l2 b2]| |] eqn:K; try discriminate L. cbn in L; injection L as ->; exact (IH _ K).
  - reflexivity.
Qed.

(** a solver that looks [n] times *)
Definition busy (n : nat) : env :=
  Env (fun s dt => (repeat (sq_t (q_sq s) + dt) n, true, 0, [3])) (fun h => h) (fun n => n)
      (fun _ _ _ => [1; 2]) (fun s => sq_state (q_sq s)) (fun s _ => sq_state (q_sq s))
      (Some lib1) (fun _ => true) 6 1 1.

(** The counter is an int: after 2147483647 looks it overflows, even with the bar never switched on. *)
Theorem c97_overflow_refuted : exists e s0 h s s' ev, made e true s0 /\ session e s0 h s (Bar false 0) [] /\
  all_done h /\ calls_of h = [CInit3 2 2 3 v0 BFlavor; CTrack (Some fwd); CBody (Some earth)] /\
  exec e CEvolve s = (Done, s', ev) /\ shown CEvolve (q_track s) Done ev (q_x s') (Bar false 0) = UB.
Proof.
  assert (G : exists n, Z.of_nat n = (int_max + 1)%Z) by (exists (Z.to_nat (int_max + 1)); apply Z2Nat.id; unfold int_max; lia).
  destruct G as (n & G). exists (busy n).
  destruct (ready_session (busy n) earth fwd v0) as (s0 & h & s & Mk & D & C & Z & R0 & AN & Ss); [cbn; lia|].
  pose proof (ready_able _ _ _ _ _ _ _ R0) as A. open_ready R0.
  destruct (able_evolve (busy n) _ _ _ _ (fun _ _ => eq_refl) A) as (s1 & ev1 & E1 & _).
  exists s0, h, s, s1, ev1. split; [exact Mk|]. split; [exact (Ss false)|]. split; [exact D|]. split; [exact C|].
  split; [exact E1|].
  destruct (evolve_state_count (busy n) earth fwd s s1 ev1 (ab_body _ _ _ _ A) (ab_track _ _ _ _ A) eq_refl) as (s2 & dt & X).
  - rewrite R7. reflexivity.
  - rewrite R6. reflexivity.
  - exact E1.
  - cbn [busy e_solve fst] in X. rewrite repeat_length in X.
    unfold shown. rewrite (ab_track _ _ _ _ A), looks_full; [reflexivity|unfold int_max; lia|rewrite X, G; lia].
Qed.

Print Assumptions c97_line.
Print Assumptions c97_advance.
Print Assumptions c97_ends.
Print Assumptions c97_counter.
Print Assumptions c97_off.
Print Assumptions c97_call.
Print Assumptions c97_evolution_partial.
Print Assumptions c97_again_refuted.
Print Assumptions c97_zero_length_refuted.
Print Assumptions c97_overflow_refuted.
