(** Lemmas for C102: strict positivity of the quadrature, eventually enough
    turns, extensionality of the making of the tables. *)
From Coq Require Import Reals ZArith List Arith Bool Lia Lra.
From Verif Require Import Err TauModel XsModel XsProps QuadModel QuadProofs QuadProps QuadTermProps QuadBoundProps DisTabModel.
From Verif Require XsTabModel XsTabProofs XsTabProps.
Import ListNotations.
Open Scope R_scope.

(** ** Positive integrands *)

(** not negative, and zero at one point at most *)
Definition barely (f : R -> R) (a b : R) : Prop := (forall x, a <= x <= b -> 0 <= f x) /\ (forall x y, a <= x -> x < y -> y <= b -> 0 < f x + f y).
Lemma barely_pos f a b : (forall x, a <= x <= b -> 0 < f x) -> barely f a b.
Proof. intro H. split; intros; [apply Rlt_le|apply Rplus_lt_0_compat]; apply H; lra. Qed.
Lemma barely_sub f a b c d : barely f a b -> a <= c -> d <= b -> barely f c d.
Proof. intros (H1 & H2) L M. split; intros; [apply H1|apply H2]; lra. Qed.

Lemma pos_13 f a b : a < b -> barely f a b -> 0 < kronrod13 f a b (f a) (f b).
Proof.
  intros Hab (Hf & H2). rewrite kronrod_local. apply Rmult_lt_0_compat; [lra|]. unfold K13.
  assert (P : forall s, -1 <= s <= 1 -> 0 <= f ((a + b) / 2 + s * ((b - a) / 2))).
  { intros s Hs. apply Hf. assert (0 <= (b - a) / 2) by lra. split; [|]; nra. }
  assert (Q : 0 < f ((a + b) / 2 + (-1) * ((b - a) / 2)) + f ((a + b) / 2 + 1 * ((b - a) / 2))) by (apply H2; lra).
  assert (A : 0 <= alpha <= 1) by (pose proof alpha_sq; assert (0 <= alpha) by apply sqrt_pos; split; [assumption|]; nra).
  pose proof beta_range as B.
  pose proof (P 1 ltac:(lra)). pose proof (P (-1) ltac:(lra)). pose proof (P 0 ltac:(lra)). pose proof (P alpha ltac:(lra)). pose proof (P (- alpha) ltac:(lra)).
  pose proof (P beta ltac:(lra)). pose proof (P (- beta) ltac:(lra)).
  pose proof (P x1 ltac:(unfold x1; lra)). pose proof (P (- x1) ltac:(unfold x1; lra)). pose proof (P x2 ltac:(unfold x2; lra)). pose proof (P (- x2) ltac:(unfold x2; lra)).
  pose proof (P x3 ltac:(unfold x3; lra)). pose proof (P (- x3) ltac:(unfold x3; lra)). lra.
Qed.
Lemma pos_7 f a b : a < b -> barely f a b -> 0 < seven_point f a b.
Proof.
  intros Hab (Hf & H2). unfold seven_point. cbv zeta.
  assert (A : 0 <= sqrt (2 / 3) <= 1) by (pose proof alpha_sq as E; unfold alpha in E; assert (0 <= sqrt (2 / 3)) by apply sqrt_pos; split; [assumption|]; nra).
  assert (S5 : sqrt 5 <> 0) by (apply Rgt_not_eq, sqrt_lt_R0; lra).
  pose proof beta_range as B. unfold beta in B. replace ((b - a) / 2 / sqrt 5) with (1 / sqrt 5 * ((b - a) / 2)) by (field; assumption).
  assert (P : forall s, -1 <= s <= 1 -> 0 <= f ((a + b) / 2 + s * ((b - a) / 2))).
  { intros s Hs. apply Hf. assert (0 <= (b - a) / 2) by lra. split; [|]; nra. }
  pose proof (P (sqrt (2 / 3)) ltac:(lra)). pose proof (P (- sqrt (2 / 3)) ltac:(lra)) as P1. pose proof (P (1 / sqrt 5) ltac:(lra)). pose proof (P (- (1 / sqrt 5)) ltac:(lra)) as P2.
  replace ((a + b) / 2 + - sqrt (2 / 3) * ((b - a) / 2)) with ((a + b) / 2 - sqrt (2 / 3) * ((b - a) / 2)) in P1 by ring.
  replace ((a + b) / 2 + - (1 / sqrt 5) * ((b - a) / 2)) with ((a + b) / 2 - 1 / sqrt 5 * ((b - a) / 2)) in P2 by ring.
  pose proof (H2 a b ltac:(lra) ltac:(lra) ltac:(lra)). pose proof (Hf ((a + b) / 2) ltac:(lra)).
  apply Rmult_lt_0_compat; [lra|]. lra.
Qed.
Lemma integral_pos f fuel a b tol opt r : a < b -> given f opt a b -> barely f a b ->
  integrate f fuel a b tol opt = Some (Ok r) -> 0 < integral r.
Proof.
  intros Hab Hg Hf H. destruct (c19_partition _ _ _ _ _ _ _ Hab Hg H) as [->|(pts & T & P1 & P2 & -> & _)]; [now apply pos_13|].
  clear - Hab P1 Hf. revert a Hab Hf P1. induction pts as [|p ps IH]; intros a Hab Hf P1; cbn [increasing_to over_pieces] in *; [lra|].
  destruct P1 as [P1 P2]. pose proof (increasing_le _ _ _ P2).
  assert (0 < seven_point f a p) by (apply pos_7; [assumption|eapply barely_sub; [exact Hf|lra|lra]]).
  destruct (Rle_lt_or_eq_dec p b) as [L|L]; [assumption| |].
  - assert (0 < over_pieces (seven_point f) p ps) by (apply IH; [exact L|eapply barely_sub; [exact Hf|lra|lra]|exact P2]). lra.
  - subst p. destruct ps as [|q qs]; cbn [over_pieces]; [lra|]. cbn [increasing_to] in P2. destruct P2 as [P2 P3]. pose proof (increasing_le _ _ _ P3). lra.
Qed.
Lemma fast_barely f fuel a b tol v : a < b -> barely f a b -> fast_int f fuel a b tol = Some (Ok v) -> 0 < v.
Proof.
  intros Hab Hb H. pose proof Hb as (Hf & H2).
  destruct sqrt3 as [S3 Sq]. assert (Sp : 0 < 1 / sqrt 3) by (apply Rdiv_lt_0_compat; [lra|apply sqrt_lt_R0; lra]).
  assert (S1 : 1 / sqrt 3 <= 1) by nra.
  pose proof (H2 a b ltac:(lra) ltac:(lra) ltac:(lra)). pose proof (Hf ((a + b) / 2) ltac:(lra)).
  destruct (c20_documented_rules f fuel a b tol v ltac:(lra) H) as [->|[->|[->|(r & E & ->)]]].
  - unfold trapezoid. apply Rmult_lt_0_compat; lra.
  - unfold gauss2. replace ((b - a) / 2 / sqrt 3) with (1 / sqrt 3 * ((b - a) / 2)) by (field; assumption). apply Rmult_lt_0_compat; [lra|]. apply H2; nra.
  - unfold simpson. apply Rmult_lt_0_compat; lra.
  - apply (integral_pos f fuel a b tol (Options None None) r); trivial. split; now left.
Qed.
Lemma fast_pos f fuel a b tol v : a < b -> (forall x, a <= x <= b -> 0 < f x) -> fast_int f fuel a b tol = Some (Ok v) -> 0 < v.
Proof. intros L H. apply fast_barely; [exact L|now apply barely_pos]. Qed.
(** an interval which is not too narrow is not refused *)
Lemma fast_not_refused f fuel a b tol r : a < b -> / 2 ^ 52 <= tol -> ~ too_narrow a b -> fast_int f fuel a b tol = Some r -> exists v, r = Ok v.
Proof.
  intros Hab Ht Hn. unfold fast_int. cbv zeta.
  destruct (agree _ _ _); [intros [= <-]; eauto|]. destruct (agree _ _ _); [intros [= <-]; eauto|]. destruct (agree _ _ _); [intros [= <-]; eauto|].
  unfold integrate. destruct (Rlt_dec tol epsilon) as [L|_]; [change epsilon with (/ 2 ^ 52) in L; lra|]. destruct (Rlt_dec b a) as [L|_]; [lra|]. cbv zeta. cbn [ofa ofb].
  assert (C : forall fa fb, can_subdivide (evaluate f a b fa fb) = true).
  { intros. unfold can_subdivide. cbn [evaluate ia ib]. destruct (Rlt_dec _ _) as [|n]; [reflexivity|]. exfalso. apply Hn. unfold too_narrow. change epsilon with (/ 2 ^ 52) in n. lra. }
  rewrite C. cbn [negb]. destruct (Rle_dec _ 0); cbn [obind]; [intros [= <-]; eauto|].
  destruct (quad_loop _ _ _ _ _); cbn [obind]; [intros [= <-]; eauto|discriminate].
Qed.

(** ** From some number of turns on *)

Definition ev (P : nat -> Prop) : Prop := exists N, forall m, (N <= m)%nat -> P m.
Lemma ev_and P Q : ev P -> ev Q -> ev (fun m => P m /\ Q m).
Proof. intros (N & HN) (M & HM). exists (N + M)%nat. intros m L. split; [apply HN|apply HM]; lia. Qed.
Lemma ev_always (P : nat -> Prop) : (forall m, P m) -> ev P.
Proof. exists 0%nat. auto. Qed.
Lemma ev_imp (P Q : nat -> Prop) : (forall m, P m -> Q m) -> ev P -> ev Q.
Proof. intros H (N & HN). exists N. auto. Qed.
Lemma ev_lt n (P : nat -> nat -> Prop) : (forall i, (i < n)%nat -> ev (P i)) -> ev (fun m => forall i, (i < n)%nat -> P i m).
Proof.
  induction n as [|n IH]; intros H; [apply ev_always; lia|].
  apply (ev_imp (fun m => P n m /\ forall i, (i < n)%nat -> P i m)).
  - intros m [A B] i L. destruct (Nat.eq_dec i n) as [->|]; [exact A|apply B; lia].
  - apply ev_and; [apply H; lia|apply IH; intros i L; apply H; lia].
Qed.
Lemma ev_fl (P : XsTabModel.flavour -> nat -> Prop) : (forall f, ev (P f)) -> ev (fun m => forall f, P f m).
Proof.
  intros H. apply (ev_imp (fun m => (P XsTabModel.Electron m /\ P XsTabModel.Muon m) /\ P XsTabModel.Tau m /\ P XsTabModel.Sterile m)); [intros m ((A & B) & C & D) []; assumption|].
  repeat apply ev_and; apply H.
Qed.
Lemma ev_bool (P : bool -> nat -> Prop) : (forall f, ev (P f)) -> ev (fun m => forall f, P f m).
Proof. intros H. apply (ev_imp (fun m => P true m /\ P false m)); [intros m (A & B) []; assumption|]. apply ev_and; apply H. Qed.
Lemma ev_cur (P : XsTabModel.current -> nat -> Prop) : (forall f, ev (P f)) -> ev (fun m => forall f, P f m).
Proof.
  intros H. apply (ev_imp (fun m => P XsTabModel.CC m /\ P XsTabModel.NC m /\ P XsTabModel.GR m)); [intros m (A & B & C) []; assumption|].
  repeat apply ev_and; apply H.
Qed.

Lemma fast_out_ok g a b : 0 < a < b -> ~ too_narrow a b -> ev (fun fuel => exists v, fast_out fuel g a b = Ok v).
Proof.
  intros Hab Hn. destruct (c20_terminates (fun e => or_zero (g e)) a b (1 / 1000) ltac:(lra)) as (N & HN); [apply tame_away; lra|].
  exists N. intros m L. destruct (HN m L) as (r & E). unfold fast_out. rewrite E.
  assert (T : / 2 ^ 52 <= 1 / 1000) by (replace (1 / 1000) with (/ 1000) by field; apply Rinv_le_contravar; lra).
  exact (fast_not_refused _ _ _ _ _ _ (proj2 Hab) T Hn E).
Qed.
Lemma fast_out_barely fuel g a b v : a < b -> barely (fun e => or_zero (g e)) a b -> fast_out fuel g a b = Ok v -> 0 < v.
Proof. unfold fast_out. intros L B H. destruct (fast_int _ fuel a b _) as [o|] eqn:F; [subst o|discriminate]. eapply fast_barely; eassumption. Qed.
Lemma fast_out_nonneg fuel g a b v : a < b -> (forall x, a <= x <= b -> 0 <= or_zero (g x)) -> fast_out fuel g a b = Ok v -> 0 <= v / (b - a).
Proof. unfold fast_out. intros L B H. destruct (fast_int _ fuel a b _) as [o|] eqn:F; [subst o|discriminate]. exact (c20_nonnegative (fun e => or_zero (g e)) _ _ _ _ _ L B F). Qed.
Lemma fast_out_pos g a b : 0 < a < b -> ~ too_narrow a b -> (forall x, a <= x <= b -> exists v, g x = Ok v /\ 0 < v) ->
  ev (fun fuel => exists v, fast_out fuel g a b = Ok v /\ 0 < v).
Proof.
  intros Hab Hn Hg. eapply ev_imp; [|apply (fast_out_ok g a b Hab Hn)]. intros m (v & E). exists v. split; [exact E|].
  eapply fast_out_barely; [exact (proj2 Hab)| |exact E]. apply barely_pos. intros x Hx. destruct (Hg x Hx) as (w & -> & W). exact W.
Qed.
Lemma fast_out_zero fuel g a b : (forall x, g x = Ok 0) -> fast_out fuel g a b = Ok 0.
Proof.
  intros Hg. unfold fast_out, fast_int. cbv zeta. rewrite !Hg. cbn [or_zero]. unfold agree.
  rewrite !Rabs_R0, Rmax_left, Rmin_left by lra. destruct (Req_EM_T 0 0); [|lra]. f_equal. ring.
Qed.

(** ** The tables depend on the cross sections at the nodes only *)

Section Ext.
Import XsTabModel.
Lemma loop_ext n : forall lo body body' s, (forall i s, (lo <= i < lo + n)%nat -> body i s = body' i s) -> loop n lo body s = loop n lo body' s.
Proof.
  induction n as [|n IH]; intros lo body body' s H; [reflexivity|]. cbn [loop]. rewrite H by lia. destruct (body' lo s); cbn [obind]; try reflexivity. apply IH. intros. apply H. lia.
Qed.
Variables cm2 cm2GeV : R.
Variable nt : nutype.
Variables numneu ne : nat.
Variable E : nat -> R.
Variable odd : nat -> flavour.

(** equal at the nodes and over the bins *)
Definition same_at_nodes (x y : XsTabModel.xs) : Prop :=
  (forall e f a i, (e < ne)%nat -> x_total x (E e) f a i = x_total y (E e) f a i) /\
  (forall e e' f a i, (e < ne)%nat -> (e' < ne)%nat -> x_diff x (E e) (E e') f a i = x_diff y (E e) (E e') f a i) /\
  (forall b f a i, (S b < ne)%nat -> x_avtotal x (E b) (E (S b)) f a i = x_avtotal y (E b) (E (S b)) f a i) /\
  (forall e b f a i, (e < ne)%nat -> (S b < ne)%nat -> x_avdiff x (E e) (E b) (E (S b)) f a i = x_avdiff y (E e) (E b) (E (S b)) f a i).

Lemma obind_ext {A B} (o : outcome A) (k k' : A -> outcome B) : (forall v, k v = k' v) -> obind o k = obind o k'.
Proof. destruct o; cbn [obind]; auto. Qed.

Lemma cell_ext x y t r f e s : same_at_nodes x y -> (e < ne)%nat -> cell cm2 cm2GeV nt E odd x t r f e s = cell cm2 cm2GeV nt E odd y t r f e s.
Proof.
  intros (H1 & H2 & H3 & H4) L. unfold cell. cbv zeta. rewrite !H2 by lia.
  apply obind_ext; intro v1. apply obind_ext; intro s1. apply obind_ext; intro v2. apply obind_ext; intro s2.
  rewrite (loop_ext (e - 1) 1 _ (fun e2 s =>
    obind (x_avdiff y (E e) (E (e2 - 1)%nat) (E e2) (cast odd f) (anti nt r) NC) (fun v =>
    obind (assign (TNC t r f e e2) f (xmul v cm2GeV) s) (fun s =>
    obind (x_avdiff y (E e) (E (e2 - 1)%nat) (E e2) (cast odd f) (anti nt r) CC) (fun v =>
    assign (TCC t r f e e2) f (xmul v cm2GeV) s))))).
  2: { intros i s' Li. destruct i as [|b]; [lia|]. replace (S b - 1)%nat with b by lia. rewrite !H4 by lia. reflexivity. }
  apply obind_ext; intro s3.
  destruct (Nat.ltb_spec 0 e) as [P|P].
  - destruct e as [|b]; [lia|]. replace (S b - 1)%nat with b by lia. rewrite !H3 by lia. reflexivity.
  - rewrite !H1 by lia. reflexivity.
Qed.

Definition alike (o o' : option XsTabModel.xs) : Prop := match o, o' with Some x, Some y => same_at_nodes x y | None, None => True | _, _ => False end.
Lemma target_ext lib lib' c t s : alike (lib c) (lib' c) -> target lib cm2 cm2GeV nt numneu ne E odd c t s = target lib' cm2 cm2GeV nt numneu ne E odd c t s.
Proof.
  unfold target, alike. destruct (lib c) as [x|], (lib' c) as [y|]; try contradiction; [|reflexivity]. intro H.
  rewrite (loop_ext (nrhos nt) 0 (fun r => loop numneu 0 (fun f => loop ne 0 (fun e1 => cell cm2 cm2GeV nt E odd x t r f e1)))
    (fun r => loop numneu 0 (fun f => loop ne 0 (fun e1 => cell cm2 cm2GeV nt E odd y t r f e1)))); [reflexivity|].
  intros r s1 _. apply loop_ext. intros f s2 _. apply loop_ext. intros e s3 Le. apply cell_ext; [exact H|lia].
Qed.
Lemma all_targets_ext lib lib' l : (forall c, In c l -> alike (lib c) (lib' c)) -> forall t s,
  all_targets lib cm2 cm2GeV nt numneu ne E odd l t s = all_targets lib' cm2 cm2GeV nt numneu ne E odd l t s.
Proof.
  induction l as [|c l IH]; intros H t s; [reflexivity|]. cbn [all_targets]. rewrite (target_ext lib lib') by (apply H; left; reflexivity).
  apply obind_ext. intro. apply IH. intros. apply H. now right.
Qed.
Lemma resonance_ext lib lib' glashow s : alike (lib electron) (lib' electron) ->
  resonance lib cm2 cm2GeV nt ne E glashow s = resonance lib' cm2 cm2GeV nt ne E glashow s.
Proof.
  unfold resonance, alike. destruct (has_glashow nt glashow); [|reflexivity].
  destruct (lib electron) as [x|], (lib' electron) as [y|]; try contradiction; [|reflexivity]. intros (H1 & H2 & H3 & H4).
  match goal with |- obind (loop ne 0 ?p s) _ = obind (loop ne 0 ?q s) _ => rewrite (loop_ext ne 0 p q); [reflexivity|] end.
  intros e s1 Le.
  replace (if Nat.ltb 0 e then x_avtotal x (E (e - 1)%nat) (E e) Electron true GR else x_total x (E e) Electron true GR)
    with (if Nat.ltb 0 e then x_avtotal y (E (e - 1)%nat) (E e) Electron true GR else x_total y (E e) Electron true GR).
  2: { destruct (Nat.ltb_spec 0 e); [destruct e as [|b]; [lia|]; replace (S b - 1)%nat with b by lia; rewrite H3 by lia; reflexivity|rewrite H1 by lia; reflexivity]. }
  apply obind_ext; intro v. cbv zeta. rewrite H2 by lia. apply obind_ext; intro v'. apply loop_ext. intros e2 s2 L2.
  destruct e2 as [|b]; [lia|]. replace (S b - 1)%nat with b by lia. rewrite H4 by lia. reflexivity.
Qed.
Lemma make_ext lib lib' tau_all tau_lep GeVm1 glashow s :
  (exists x, lib proton = Some x) -> (exists x, lib neutron = Some x) -> alike (lib proton) (lib' proton) -> alike (lib neutron) (lib' neutron) -> alike (lib electron) (lib' electron) ->
  make lib tau_all tau_lep cm2 cm2GeV GeVm1 nt numneu ne E glashow odd s = make lib' tau_all tau_lep cm2 cm2GeV GeVm1 nt numneu ne E glashow odd s.
Proof.
  intros (x & Hx) (y & Hy) Ap An He. unfold make.
  assert (C : choose_targets lib = Ok [proton; neutron]) by (unfold choose_targets, has; now rewrite Hx, Hy).
  assert (C' : choose_targets lib' = Ok [proton; neutron]).
  { unfold choose_targets, has. unfold alike in Ap, An. rewrite Hx in Ap. rewrite Hy in An. destruct (lib' proton); [|contradiction]. destruct (lib' neutron); [|contradiction]. reflexivity. }
  rewrite C, C'. cbn [obind]. unfold get_cross_sections. rewrite (all_targets_ext lib lib') by (intros c [<-|[<-|[]]]; assumption).
  f_equal. apply obind_ext. intro s1. now rewrite (resonance_ext lib lib').
Qed.
End Ext.
