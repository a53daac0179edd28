(** What GetCrossSections leaves in the arrays. *)
From Coq Require Import Reals ZArith List Arith Bool Lia Lra.
From Verif Require Import Err XsTabModel.
Import ListNotations.
Open Scope R_scope.

Section Proofs.
Variable lib : Z -> option xs.
Variable tau_all tau_lep : nat -> nat -> nat -> xval.
Variables cm2 cm2GeV GeVm1 : R.
Variable nt : nutype.
Variables numneu ne : nat.
Variable E : nat -> R.
Variable glashow : bool.
Variable odd : nat -> flavour.

Notation fl := (cast odd).
Notation ty := (anti nt).

(** The average over the bin below a node, at the first node the value there. *)
Definition total_at (x : xs) (f : flavour) (a : bool) (c : current) (e : nat) : outcome xval :=
  if Nat.eqb e 0 then x_total x (E e) f a c else x_avtotal x (E (e - 1)%nat) (E e) f a c.
Definition diff_at (x : xs) (f : flavour) (a : bool) (c : current) (e e' : nat) : outcome xval :=
  if Nat.eqb e' 0 then x_diff x (E e) (E 0%nat) f a c else x_avdiff x (E e) (E (e' - 1)%nat) (E e') f a c.

(** what an entry is meant to contain; [codes] are the targets *)
Variable codes : list Z.
Definition times (o : outcome xval) (u : R) (v : xval) : Prop := exists w, o = Ok w /\ v = xmul w u.
Definition quotient (n d v : xval) : Prop := v = if is_zero n then Num 0 else xdiv n d.
Definition from_target (t : nat) (P : xs -> Prop) : Prop := exists c x, nth_error codes t = Some c /\ lib c = Some x /\ P x.
Definition holds (k : key) (v : xval) : Prop :=
  match k with
  | SCC t r f e => from_target t (fun x => times (total_at x (fl f) (ty r) CC e) cm2 v)
  | SNC t r f e => from_target t (fun x => times (total_at x (fl f) (ty r) NC e) cm2 v)
  | TCC t r f e e' => from_target t (fun x => times (diff_at x (fl f) (ty r) CC e e') cm2GeV v)
  | TNC t r f e e' => from_target t (fun x => times (diff_at x (fl f) (ty r) NC e e') cm2GeV v)
  | DCC t r f e e' => from_target t (fun x => exists n d, times (diff_at x (fl f) (ty r) CC e e') cm2GeV n /\
      times (total_at x (fl f) (ty r) CC e) cm2 d /\ quotient n d v)
  | DNC t r f e e' => from_target t (fun x => exists n d, times (diff_at x (fl f) (ty r) NC e e') cm2GeV n /\
      times (total_at x (fl f) (ty r) NC e) cm2 d /\ quotient n d v)
  | SGR e => exists x, lib electron = Some x /\ times (total_at x Electron true GR e) cm2 v
  | TGR e e' => exists x, lib electron = Some x /\ times (diff_at x Electron true GR e e') cm2GeV v
  | DGR e e' => exists x, lib electron = Some x /\ exists n d, times (diff_at x Electron true GR e e') cm2GeV n /\
      times (total_at x Electron true GR e) cm2 d /\ v = xdiv n d
  | TALL r e e' => v = xmul (tau_all e e' (if ty r then 1 else 0)%nat) GeVm1
  | TLEP r e e' => v = xmul (tau_lep e e' (if ty r then 1 else 0)%nat) GeVm1
  end.

(** the flavour whose sanity is checked *)
Definition checked (k : key) : Prop :=
  match k with
  | SCC _ _ f _ | SNC _ _ f _ | TCC _ _ f _ _ | TNC _ _ f _ _ => (f < 3)%nat
  | DCC t r f e e' | DNC t r f e e' => (f < 3)%nat
  | _ => False
  end.

(** [G]: nothing can go wrong *)
Record good : Prop := {
  g_lib : forall c, In c codes -> exists x, lib c = Some x;
  g_electron : has_glashow nt glashow = true -> exists x, lib electron = Some x;
  g_ok : forall c x, lib c = Some x ->
    (forall e f a i, exists v, x_total x e f a i = Ok v) /\ (forall e e' f a i, exists v, x_diff x e e' f a i = Ok v) /\
    (forall e e' f a i, exists v, x_avtotal x e e' f a i = Ok v) /\ (forall e e' e'' f a i, exists v, x_avdiff x e e' e'' f a i = Ok v);
  g_sane : forall k v, checked k -> holds k v -> sane v = true }.
(** the library has the targets and its functions are defined *)
Record safe : Prop := {
  s_lib : forall c, In c codes -> exists x, lib c = Some x;
  s_def : forall c x, lib c = Some x ->
    (forall e f a i, x_total x e f a i <> UB) /\ (forall e e' f a i, x_diff x e e' f a i <> UB) /\
    (forall e e' f a i, x_avtotal x e e' f a i <> UB) /\ (forall e e' e'' f a i, x_avdiff x e e' e'' f a i <> UB) }.

Definition writes (D : key -> Prop) (s s' : store) : Prop :=
  (forall k, D k -> exists v, s' k = Some v /\ holds k v /\ (checked k -> sane v = true)) /\
  (forall k, ~ D k -> s' k = s k).
Definition sat (D : key -> Prop) (s : store) (o : outcome store) : Prop :=
  match o with Ok s' => writes D s s' | Throw _ => ~ good | UB => ~ safe end.

Hypothesis dec : forall P : Prop, P \/ ~ P.

Lemma writes_refl s : writes (fun _ => False) s s.
Proof. split; [contradiction|reflexivity]. Qed.
Lemma writes_trans D1 D2 s s1 s2 : writes D1 s s1 -> writes D2 s1 s2 -> writes (fun k => D1 k \/ D2 k) s s2.
Proof.
  intros [A1 B1] [A2 B2]. split.
  - intros k H. destruct (dec (D2 k)) as [K|K]; [apply A2; exact K|]. destruct H as [H|H]; [|contradiction].
    rewrite (B2 k K). apply A1. exact H.
  - intros k H. rewrite B2, B1; auto.
Qed.
Lemma writes_iff D D' s s' : (forall k, D k <-> D' k) -> writes D s s' -> writes D' s s'.
Proof. intros H [A B]. split; intros k K; [apply A|apply B]; rewrite H; exact K. Qed.
Lemma sat_iff D D' s o : (forall k, D k <-> D' k) -> sat D s o -> sat D' s o.
Proof. intros H. destruct o; cbn; auto. apply writes_iff. exact H. Qed.
Lemma sat_bind D1 D2 s o (f : store -> outcome store) :
  sat D1 s o -> (forall s1, writes D1 s s1 -> sat D2 s1 (f s1)) -> sat (fun k => D1 k \/ D2 k) s (obind o f).
Proof.
  intros H K. destruct o as [s1| |]; cbn [obind]; cbn in H; [|exact H|exact H].
  specialize (K s1 H). destruct (f s1) as [s2| |]; cbn in K |- *; auto. eapply writes_trans; eauto.
Qed.
Lemma sat_put k v s : holds k v -> (checked k -> sane v = true) -> sat (fun k' => k' = k) s (Ok (put k v s)).
Proof.
  intros H C. split.
  - intros k' ->. exists v. unfold put. destruct (key_eq_dec k k); [|contradiction]. auto.
  - intros k' N. unfold put. destruct (key_eq_dec k' k); [contradiction|reflexivity].
Qed.

(** every round of a loop writes its own entries, given what earlier rounds wrote *)
Lemma sat_loop n : forall lo (D : nat -> key -> Prop) body s,
  (forall i s1, (lo <= i < lo + n)%nat -> writes (fun k => exists j, (lo <= j < i)%nat /\ D j k) s s1 -> sat (D i) s1 (body i s1)) ->
  sat (fun k => exists j, (lo <= j < lo + n)%nat /\ D j k) s (loop n lo body s).
Proof.
  induction n as [|n IH]; intros lo D body s H; cbn [loop].
  - apply sat_iff with (D := fun _ => False); [|apply writes_refl].
    intro k. split; [contradiction|]. intros (j & L & _). lia.
  - eapply sat_iff; [|apply sat_bind with (D1 := D lo) (D2 := fun k => exists j, (S lo <= j < S lo + n)%nat /\ D j k)].
    + intro k. split.
      * intros [K|(j & L & K)]; [exists lo|exists j]; (split; [lia|exact K]).
      * intros (j & L & K). destruct (Nat.eq_dec j lo) as [->|Ne]; [left; exact K|right; exists j; split; [lia|exact K]].
    + apply H; [lia|]. apply writes_iff with (D := fun _ => False); [|apply writes_refl].
      intro k. split; [contradiction|]. intros (j & L & _). lia.
    + intros s1 W. apply IH. intros i s2 L W2. apply H; [lia|].
      eapply writes_iff; [|apply (writes_trans _ _ _ _ _ W W2)].
      intro k. split.
      * intros [K|(j & Lj & K)]; [exists lo|exists j]; (split; [lia|exact K]).
      * intros (j & Lj & K). destruct (Nat.eq_dec j lo) as [->|Ne]; [left; exact K|right; exists j; split; [lia|exact K]].
Qed.

(** a call of the library *)
Lemma sat_call D s (o : outcome xval) f : (o = UB -> ~ safe) -> (forall e, o = Throw e -> ~ good) ->
  (forall v, o = Ok v -> sat D s (f v)) -> sat D s (obind o f).
Proof. intros A B C. destruct o as [v|e|]; cbn [obind]; [apply C; reflexivity|exact (B e eq_refl)|exact (A eq_refl)]. Qed.

Lemma sat_assign k f v s : holds k v -> (checked k <-> (f < 3)%nat) -> sat (fun k' => k' = k) s (assign k f v s).
Proof.
  intros H C. unfold assign, validate. destruct (Nat.ltb f 3) eqn:L.
  - apply Nat.ltb_lt in L. destruct (sane v) eqn:Sv; cbn [andb negb obind].
    + apply sat_put; auto.
    + intros G. rewrite (g_sane G k v) in Sv; [discriminate|apply C; exact L|exact H].
  - apply Nat.ltb_ge in L. cbn [andb obind]. apply sat_put; [exact H|]. intro K. apply C in K. lia.
Qed.

Section Target.
Variables (t : nat) (c : Z) (x : xs).
Hypothesis Hc : nth_error codes t = Some c.
Hypothesis Hx : lib c = Some x.

Ltac lib_ub := intros U Sf; destruct (s_def Sf c x Hx) as (U1 & U2 & U3 & U4); (apply U1 in U || apply U2 in U || apply U3 in U || apply U4 in U); exact U.
Ltac lib_throw := intros ? U G; destruct (g_ok G c x Hx) as (V1 & V2 & V3 & V4);
  match type of U with
  | x_total x ?e ?f ?a ?i = _ => destruct (V1 e f a i); congruence
  | x_diff x ?e ?e' ?f ?a ?i = _ => destruct (V2 e e' f a i); congruence
  | x_avtotal x ?e ?e' ?f ?a ?i = _ => destruct (V3 e e' f a i); congruence
  | x_avdiff x ?e ?e' ?e'' ?f ?a ?i = _ => destruct (V4 e e' e'' f a i); congruence
  end.

Lemma total_at_eq f a i e : (if Nat.ltb 0 e then x_avtotal x (E (e - 1)%nat) (E e) f a i else x_total x (E e) f a i) = total_at x f a i e.
Proof. unfold total_at. destruct e; reflexivity. Qed.
Lemma total_ub f a i e : total_at x f a i e = UB -> ~ safe.
Proof. unfold total_at. destruct (Nat.eqb e 0); lib_ub. Qed.
Lemma total_throw f a i e z : total_at x f a i e = Throw z -> ~ good.
Proof. unfold total_at. revert z. destruct (Nat.eqb e 0); lib_throw. Qed.

(** the entries written by one cell *)
Definition cell_keys (r f e1 : nat) (k : key) : Prop :=
  k = SCC t r f e1 \/ k = SNC t r f e1 \/ exists e2, (e2 = 0 \/ e2 < e1)%nat /\ (k = TNC t r f e1 e2 \/ k = TCC t r f e1 e2).

Lemma cell_sat r f e1 s : sat (cell_keys r f e1) s (cell cm2 cm2GeV nt E odd x t r f e1 s).
Proof.
  unfold cell.
  assert (FT : forall P : xs -> Prop, P x -> from_target t P) by (intros P HP; exists c, x; auto).
  apply sat_call; [lib_ub|lib_throw|]. intros v1 E1.
  eapply sat_iff; [|apply sat_bind with (D1 := fun k => k = TNC t r f e1 0)].
  2:{ apply sat_assign; [|reflexivity]. apply FT. exists v1. split; [exact E1|reflexivity]. }
  2:{ intros s1 _. apply sat_call; [lib_ub|lib_throw|]. intros v2 E2.
      apply sat_bind with (D1 := fun k => k = TCC t r f e1 0).
      - apply sat_assign; [|reflexivity]. apply FT. exists v2. split; [exact E2|reflexivity].
      - intros s2 _. apply sat_bind with
          (D1 := fun k => exists e2, (1 <= e2 < 1 + (e1 - 1))%nat /\ (k = TNC t r f e1 e2 \/ k = TCC t r f e1 e2)).
        + apply sat_loop with (D := fun e2 k => k = TNC t r f e1 e2 \/ k = TCC t r f e1 e2). intros e2 s3 L _.
          assert (Ne : Nat.eqb e2 0 = false) by (apply Nat.eqb_neq; lia).
          apply sat_call; [lib_ub|lib_throw|]. intros v3 E3. apply sat_bind.
          * apply sat_assign; [|reflexivity]. apply FT. exists v3. unfold diff_at. rewrite Ne. split; [exact E3|reflexivity].
          * intros s4 _. apply sat_call; [lib_ub|lib_throw|]. intros v4 E4. apply sat_assign; [|reflexivity].
            apply FT. exists v4. unfold diff_at. rewrite Ne. split; [exact E4|reflexivity].
        + intros s3 _. rewrite !total_at_eq. apply sat_call; [apply total_ub|apply total_throw|]. intros vc Ec.
          apply sat_call; [apply total_ub|apply total_throw|]. intros vn En. cbn zeta.
          assert (Hv : forall k v, holds k v -> checked k <-> (f < 3)%nat -> (validate f v = Ok tt /\ (checked k -> sane v = true)) \/ (exists e, validate f v = Throw e) /\ ~ good).
          { intros k v Hk C. unfold validate. destruct (Nat.ltb f 3) eqn:L3; cbn [andb].
            - destruct (sane v) eqn:Sv; cbn [negb]; [left; auto|]. right. split; [eauto|]. intro G.
              rewrite (g_sane G k v) in Sv; [discriminate| |exact Hk]. apply C. apply Nat.ltb_lt. exact L3.
            - left. split; [reflexivity|]. intro K. apply C in K. apply Nat.ltb_ge in L3. lia. }
          assert (Hc1 : holds (SCC t r f e1) (xmul vc cm2)) by (apply FT; exists vc; auto).
          assert (Hn1 : holds (SNC t r f e1) (xmul vn cm2)) by (apply FT; exists vn; auto).
          destruct (Hv _ _ Hc1 ltac:(reflexivity)) as [[-> Sc]|[[e ->] Nc]]; cbn [obind]; [|exact Nc].
          destruct (Hv _ _ Hn1 ltac:(reflexivity)) as [[-> Sn]|[[e ->] Nn]]; cbn [obind]; [|exact Nn].
          change (Ok (put (SNC t r f e1) (xmul vn cm2) (put (SCC t r f e1) (xmul vc cm2) s3)))
            with (obind (Ok (put (SCC t r f e1) (xmul vc cm2) s3)) (fun s => Ok (put (SNC t r f e1) (xmul vn cm2) s))).
          apply sat_bind with (D1 := fun k => k = SCC t r f e1) (D2 := fun k => k = SNC t r f e1).
          * apply sat_put; auto.
          * intros s4 _. apply sat_put; auto. }
  intro k. unfold cell_keys. split.
  - intros [->|[->|[(e2 & L & K)|[->| ->]]]].
    + right; right. exists 0%nat. auto.
    + right; right. exists 0%nat. auto.
    + right; right. exists e2. split; [lia|exact K].
    + auto.
    + auto.
  - intros [->|[->|(e2 & L & K)]].
    + right; right; right. auto.
    + right; right; right. auto.
    + destruct e2 as [|e2]; [destruct K; auto|]. right; right; left. exists (S e2). split; [lia|exact K].
Qed.

(** the entries the second half needs *)
Definition filled (s : store) : Prop := forall r f e k, (r < nrhos nt)%nat -> (f < numneu)%nat -> (e < ne)%nat -> cell_keys r f e k ->
  exists v, s k = Some v /\ holds k v.

Lemma ratio_sat (D : key -> Prop) kt ks kd f s n d :
  s kt = Some n -> s ks = Some d -> (forall v, quotient n d v -> holds kd v) -> (checked kd <-> (f < 3)%nat) ->
  sat (fun k => k = kd) s (ratio kt ks kd f s).
Proof.
  intros A B H C. unfold ratio, get. rewrite A. cbn [obind]. unfold quotient in H. destruct (is_zero n).
  - apply sat_put; [apply H; reflexivity|]. intros _. cbn. destruct (Rlt_dec 0 0); [lra|reflexivity].
  - rewrite B. cbn [obind]. apply sat_assign; [apply H; reflexivity|exact C].
Qed.
End Target.

Definition ratio_keys (t r f e1 : nat) (k : key) : Prop := exists e2, (e2 < e1)%nat /\ (k = DNC t r f e1 e2 \/ k = DCC t r f e1 e2).
Definition in_grid (r f e : nat) : Prop := (r < nrhos nt)%nat /\ (f < numneu)%nat /\ (e < ne)%nat.
Definition target_keys (t : nat) (k : key) : Prop :=
  exists r f e1, in_grid r f e1 /\ (cell_keys t r f e1 k \/ ratio_keys t r f e1 k).

Lemma target_sat t c s : nth_error codes t = Some c ->
  sat (target_keys t) s (target lib cm2 cm2GeV nt numneu ne E odd c t s).
Proof.
  intro Hc. unfold target. destruct (lib c) as [x|] eqn:Hx.
  2:{ intro Sf. destruct (s_lib Sf c (nth_error_In _ _ Hc)). congruence. }
  eapply sat_iff; [|apply sat_bind with
    (D1 := fun k => exists r f e1, in_grid r f e1 /\ cell_keys t r f e1 k)
    (D2 := fun k => exists r f e1, in_grid r f e1 /\ ratio_keys t r f e1 k)].
  - intro k. unfold target_keys. split.
    + intros [(r & f & e & G & K)|(r & f & e & G & K)]; exists r, f, e; auto.
    + intros (r & f & e & G & [K|K]); [left|right]; exists r, f, e; auto.
  - eapply sat_iff; [|apply sat_loop with (D := fun r k => exists f e1, in_grid r f e1 /\ cell_keys t r f e1 k)].
    { intro k. split; [intros (r & _ & f & e & K); exists r, f, e; exact K|].
      intros (r & f & e & G & K). exists r. split; [destruct G; lia|]. exists f, e. auto. }
    intros r s1 Lr _. eapply sat_iff; [|apply sat_loop with (D := fun f k => exists e1, in_grid r f e1 /\ cell_keys t r f e1 k)].
    { intro k. split; [intros (f & _ & e & K); exists f, e; exact K|].
      intros (f & e & G & K). exists f. split; [destruct G as (_ & ? & _); lia|]. exists e. auto. }
    intros f s2 Lf _. eapply sat_iff; [|apply sat_loop with (D := fun e1 k => cell_keys t r f e1 k)].
    { intro k. split; [intros (e & L & K); exists e; split; [repeat split; lia|exact K]|].
      intros (e & G & K). exists e. split; [destruct G as (_ & _ & ?); lia|exact K]. }
    intros e1 s3 Le _. eapply cell_sat; eassumption.
  - intros s1 [W _].
    assert (Fl : forall r f e1, in_grid r f e1 -> forall e2, (e2 < e1)%nat -> forall s2,
      (forall k, cell_keys t r f e1 k -> s2 k = s1 k) ->
      sat (fun k => k = DNC t r f e1 e2) s2 (ratio (TNC t r f e1 e2) (SNC t r f e1) (DNC t r f e1 e2) f s2) /\
      sat (fun k => k = DCC t r f e1 e2) s2 (ratio (TCC t r f e1 e2) (SCC t r f e1) (DCC t r f e1 e2) f s2)).
    { intros r f e1 G e2 L2 s2 Fr.
      assert (V : forall k, cell_keys t r f e1 k -> exists v, s2 k = Some v /\ holds k v).
      { intros k K. rewrite (Fr k K). destruct (W k) as (v & A & B & _); [exists r, f, e1; auto|]. eauto. }
      destruct (V (TNC t r f e1 e2)) as (n & A1 & A2). { right; right. exists e2. auto. }
      destruct (V (SNC t r f e1)) as (d & B1 & B2). { right; left. reflexivity. }
      destruct (V (TCC t r f e1 e2)) as (n' & A1' & A2'). { right; right. exists e2. auto. }
      destruct (V (SCC t r f e1)) as (d' & B1' & B2'). { left. reflexivity. }
      split.
      - eapply ratio_sat; [exact (fun _ => True)|exact A1|exact B1| |reflexivity]. intros v Q.
        destruct A2 as (c1 & x1 & Z1 & Z2 & A2). destruct B2 as (c2 & x2 & Z3 & Z4 & B2).
        rewrite Hc in Z1, Z3. injection Z1 as <-. injection Z3 as <-. rewrite Hx in Z2, Z4. injection Z2 as <-. injection Z4 as <-.
        exists c, x. split; [exact Hc|]. split; [exact Hx|]. exists n, d. auto.
      - eapply ratio_sat; [exact (fun _ => True)|exact A1'|exact B1'| |reflexivity]. intros v Q.
        destruct A2' as (c1 & x1 & Z1 & Z2 & A2'). destruct B2' as (c2 & x2 & Z3 & Z4 & B2').
        rewrite Hc in Z1, Z3. injection Z1 as <-. injection Z3 as <-. rewrite Hx in Z2, Z4. injection Z2 as <-. injection Z4 as <-.
        exists c, x. split; [exact Hc|]. split; [exact Hx|]. exists n', d'. auto. }
    assert (NoC : forall r f e1 k, ratio_keys t r f e1 k -> forall r' f' e', ~ cell_keys t r' f' e' k).
    { intros r f e1 k (e2 & _ & [->| ->]) r' f' e' [K|[K|(e & _ & [K|K])]]; discriminate K. }
    eapply sat_iff; [|apply sat_loop with (D := fun r k => exists f e1, in_grid r f e1 /\ ratio_keys t r f e1 k)].
    { intro k. split; [intros (r & _ & f & e & K); exists r, f, e; exact K|].
      intros (r & f & e & G & K). exists r. split; [destruct G; lia|]. exists f, e. auto. }
    intros r s2 Lr W2. eapply sat_iff; [|apply sat_loop with (D := fun f k => exists e1, in_grid r f e1 /\ ratio_keys t r f e1 k)].
    { intro k. split; [intros (f & _ & e & K); exists f, e; exact K|].
      intros (f & e & G & K). exists f. split; [destruct G as (_ & ? & _); lia|]. exists e. auto. }
    intros f s3 Lf W3. eapply sat_iff; [|apply sat_loop with (D := fun e1 k => ratio_keys t r f e1 k)].
    { intro k. split; [intros (e & L & K); exists e; split; [repeat split; lia|exact K]|].
      intros (e & G & K). exists e. split; [destruct G as (_ & _ & ?); lia|exact K]. }
    intros e1 s4 Le W4.
    assert (G : in_grid r f e1) by (repeat split; lia).
    eapply sat_iff; [|apply sat_loop with (D := fun e2 k => k = DNC t r f e1 e2 \/ k = DCC t r f e1 e2)].
    { intro k. split; intros (e2 & L & K); exists e2; (split; [lia|exact K]). }
    intros e2 s5 L2 W5.
    assert (Base : forall k, cell_keys t r f e1 k -> s5 k = s1 k).
    { intros k K. destruct W5 as [_ W5], W4 as [_ W4], W3 as [_ W3], W2 as [_ W2].
      rewrite W5, W4, W3, W2; [reflexivity| | | |].
      - intros (j & _ & f' & e' & _ & Rk). exact (NoC _ _ _ _ Rk _ _ _ K).
      - intros (j & _ & e' & _ & Rk). exact (NoC _ _ _ _ Rk _ _ _ K).
      - intros (j & _ & Rk). exact (NoC _ _ _ _ Rk _ _ _ K).
      - intros (j & Lj & Rk). refine (NoC r f e1 k _ _ _ _ K). exists j. split; [lia|exact Rk]. }
    apply sat_bind.
    + apply (Fl r f e1 G e2 ltac:(lia) s5 Base).
    + intros s6 [_ W6]. apply (Fl r f e1 G e2 ltac:(lia) s6). intros k K. rewrite W6; [apply Base; exact K|].
      intros ->. destruct K as [K|[K|(e & _ & [K|K])]]; discriminate K.
Qed.

Definition targets_keys (lo : nat) (k : key) : Prop := exists t, (lo <= t < length codes)%nat /\ target_keys t k.
Lemma all_targets_sat l : forall t s, (forall i, nth_error l i = nth_error codes (t + i)) ->
  sat (targets_keys t) s (all_targets lib cm2 cm2GeV nt numneu ne E odd l t s).
Proof.
  induction l as [|c l IH]; intros t s H; cbn [all_targets].
  - apply sat_iff with (D := fun _ => False); [|apply writes_refl]. intro k. split; [contradiction|].
    intros (t' & L & _). specialize (H 0%nat). cbn in H. rewrite Nat.add_0_r in H. symmetry in H. apply nth_error_None in H. lia.
  - assert (Hc : nth_error codes t = Some c) by (rewrite <- (Nat.add_0_r t), <- H; reflexivity).
    assert (Lt : (t < length codes)%nat) by (apply nth_error_Some; congruence).
    eapply sat_iff; [|apply sat_bind with (D1 := target_keys t) (D2 := targets_keys (S t))].
    + intro k. split.
      * intros [K|(t' & L & K)]; [exists t|exists t']; (split; [lia|exact K]).
      * intros (t' & L & K). destruct (Nat.eq_dec t' t) as [->|Ne]; [left; exact K|right; exists t'; split; [lia|exact K]].
    + apply target_sat. exact Hc.
    + intros s1 _. apply IH. intro i. specialize (H (S i)). cbn in H. rewrite H. f_equal. lia.
Qed.

Definition glashow_keys (k : key) : Prop := has_glashow nt glashow = true /\
  exists e1, (e1 < ne)%nat /\ (k = SGR e1 \/ (exists e2, (e2 = 0 \/ e2 < e1)%nat /\ k = TGR e1 e2) \/ exists e2, (e2 < e1)%nat /\ k = DGR e1 e2).
Lemma resonance_sat s : sat glashow_keys s (resonance lib cm2 cm2GeV nt ne E glashow s).
Proof.
  unfold resonance. destruct (has_glashow nt glashow) eqn:Hg.
  2:{ apply sat_iff with (D := fun _ => False); [|apply writes_refl]. intro k. split; [contradiction|]. intros [K _]. congruence. }
  destruct (lib electron) as [x|] eqn:Hx.
  2:{ intro G. destruct (g_electron G Hg). congruence. }
  eapply sat_iff; [|apply sat_bind with
    (D1 := fun k => exists e1, (0 <= e1 < 0 + ne)%nat /\ (k = SGR e1 \/ exists e2, (e2 = 0 \/ e2 < e1)%nat /\ k = TGR e1 e2))
    (D2 := fun k => exists e1, (0 <= e1 < 0 + ne)%nat /\ exists e2, (e2 < e1)%nat /\ k = DGR e1 e2)].
  - intro k. unfold glashow_keys. split.
    + intros [(e1 & L & [K|K])|(e1 & L & K)]; (split; [exact Hg|]); exists e1; (split; [lia|auto]).
    + intros (_ & e1 & L & [K|[K|K]]); [left|left|right]; exists e1; (split; [lia|auto]).
  - apply sat_loop with (D := fun e1 k => k = SGR e1 \/ exists e2, (e2 = 0 \/ e2 < e1)%nat /\ k = TGR e1 e2).
    intros e1 s1 L _. rewrite (total_at_eq x).
    apply sat_call; [intro U; eapply total_ub; eauto|intros z U; eapply total_throw; eauto|]. intros v Ev. cbn zeta.
    assert (Nd : forall k, k = SGR e1 \/ (exists e2, (e2 = 0 \/ e2 < e1)%nat /\ k = TGR e1 e2) <->
      k = SGR e1 \/ (k = TGR e1 0 \/ exists e2, (1 <= e2 < 1 + (e1 - 1))%nat /\ k = TGR e1 e2)).
    { intro k. split.
      - intros [K|(e2 & Le & ->)]; [auto|]. right. destruct e2 as [|e2]; [left; reflexivity|]. right. exists (S e2). split; [lia|reflexivity].
      - intros [K|[->|(e2 & Le & ->)]]; [auto| |]; right; eexists; (split; [|reflexivity]); lia. }
    change (sat ?D ?s ?o) with (sat D s o).
    eapply sat_iff; [intro k; symmetry; apply Nd|].
    apply (sat_bind (fun k => k = SGR e1) _ s1 (Ok (put (SGR e1) (xmul v cm2) s1)) (fun s =>
      obind (x_diff x (E e1) (E 0%nat) Electron true GR) (fun v =>
        loop (e1 - 1) 1 (fun e2 s =>
          obind (x_avdiff x (E e1) (E (e2 - 1)%nat) (E e2) Electron true GR) (fun v => Ok (put (TGR e1 e2) (xmul v cm2GeV) s)))
          (put (TGR e1 0) (xmul v cm2GeV) s)))).
    + apply sat_put; [|intros []]. exists x. split; [exact Hx|]. exists v. auto.
    + intros s2 _. apply sat_call.
      * intros U Sf. destruct (s_def Sf _ x Hx) as (_ & U2 & _). apply U2 in U. exact U.
      * intros z U G. destruct (g_ok G _ x Hx) as (_ & V2 & _). destruct (V2 (E e1) (E 0%nat) Electron true GR). congruence.
      * intros v2 E2.
        apply (sat_bind (fun k => k = TGR e1 0) _ s2 (Ok (put (TGR e1 0) (xmul v2 cm2GeV) s2))).
        { apply sat_put; [|intros []]. exists x. split; [exact Hx|]. exists v2. auto. }
        intros s3 _. apply sat_loop with (D := fun e2 k => k = TGR e1 e2). intros e2 s4 L2 _.
        apply sat_call.
        { intros U Sf. destruct (s_def Sf _ x Hx) as (_ & _ & _ & U4). apply U4 in U. exact U. }
        { intros z U G. destruct (g_ok G _ x Hx) as (_ & _ & _ & V4). destruct (V4 (E e1) (E (e2 - 1)%nat) (E e2) Electron true GR). congruence. }
        intros v3 E3. apply sat_put; [|intros []]. exists x. split; [exact Hx|]. exists v3. split; [|reflexivity].
        unfold diff_at. replace (Nat.eqb e2 0) with false by (symmetry; apply Nat.eqb_neq; lia). exact E3.
  - intros s1 [W _]. apply sat_loop with (D := fun e1 k => exists e2, (e2 < e1)%nat /\ k = DGR e1 e2).
    intros e1 s2 L W2. eapply sat_iff; [|apply sat_loop with (D := fun e2 k => k = DGR e1 e2)].
    { intro k. split; intros (e2 & Le & K); exists e2; (split; [lia|exact K]). }
    intros e2 s3 L2 W3.
    assert (V : forall k, (k = SGR e1 \/ k = TGR e1 e2) -> exists v, s3 k = Some v /\ holds k v).
    { intros k K. destruct W3 as [_ W3], W2 as [_ W2]. rewrite W3, W2.
      - destruct (W k) as (v & A & B & _); [|eauto]. exists e1. split; [lia|]. destruct K; [auto|]. right. exists e2. split; [lia|auto].
      - intros (j & _ & e & _ & Z). destruct K as [K|K]; rewrite K in Z; discriminate Z.
      - intros (j & _ & Z). destruct K as [K|K]; rewrite K in Z; discriminate Z. }
    destruct (V _ (or_introl eq_refl)) as (d & D1 & D2). destruct (V _ (or_intror eq_refl)) as (n & N1 & N2).
    unfold get. rewrite N1. cbn [obind]. rewrite D1. cbn [obind]. apply sat_put; [|intros []].
    destruct N2 as (x1 & X1 & N2). destruct D2 as (x2 & X2 & D2). rewrite Hx in X1, X2. injection X1 as <-. injection X2 as <-.
    exists x. split; [exact Hx|]. exists n, d. auto.
Qed.

Definition decay_keys (k : key) : Prop := exists r e1 e2, (r < nrhos nt)%nat /\ (e1 < ne)%nat /\ (e2 < e1)%nat /\ (k = TALL r e1 e2 \/ k = TLEP r e1 e2).
Lemma decays_sat s : sat decay_keys s (decays tau_all tau_lep GeVm1 nt ne s).
Proof.
  unfold decays.
  eapply sat_iff; [|apply sat_loop with (D := fun r k => exists e1, (0 <= e1 < 0 + ne)%nat /\ exists e2, (0 <= e2 < 0 + e1)%nat /\ (k = TALL r e1 e2 \/ k = TLEP r e1 e2))].
  { intro k. unfold decay_keys. split.
    - intros (r & Lr & e1 & L1 & e2 & L2 & K). exists r, e1, e2. repeat split; try lia. exact K.
    - intros (r & e1 & e2 & Lr & L1 & L2 & K). exists r. split; [lia|]. exists e1. split; [lia|]. exists e2. split; [lia|exact K]. }
  intros r s1 _ _. apply sat_loop with (D := fun e1 k => exists e2, (0 <= e2 < 0 + e1)%nat /\ (k = TALL r e1 e2 \/ k = TLEP r e1 e2)).
  intros e1 s2 _ _. apply sat_loop with (D := fun e2 k => k = TALL r e1 e2 \/ k = TLEP r e1 e2). intros e2 s3 _ _.
  apply (sat_bind (fun k => k = TALL r e1 e2) (fun k => k = TLEP r e1 e2) s3
    (Ok (put (TALL r e1 e2) (xmul (tau_all e1 e2 (if ty r then 1 else 0)%nat) GeVm1) s3))
    (fun s => Ok (put (TLEP r e1 e2) (xmul (tau_lep e1 e2 (if ty r then 1 else 0)%nat) GeVm1) s))).
  - apply sat_put; [reflexivity|intros []].
  - intros s4 _. apply sat_put; [reflexivity|intros []].
Qed.

Definition all_keys (k : key) : Prop := targets_keys 0 k \/ glashow_keys k \/ decay_keys k.
Lemma tables_sat s : sat all_keys s
  (get_cross_sections lib tau_all tau_lep cm2 cm2GeV GeVm1 nt numneu ne E glashow odd codes s).
Proof.
  unfold get_cross_sections, all_keys. apply sat_bind with (D1 := targets_keys 0).
  - apply all_targets_sat. reflexivity.
  - intros s1 _. apply sat_bind with (D1 := glashow_keys); [apply resonance_sat|]. intros s2 _. apply decays_sat.
Qed.

End Proofs.
