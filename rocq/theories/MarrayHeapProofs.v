From Coq Require Import List Arith ZArith Bool Lia.
From Verif Require Import Err MarrayModel MarrayEditProofs MarrayHeapModel MarrayHeapSpec.
Import ListNotations.

(** Ownership invariant. *)
Record hinv (al : nat) (s : hstate) : Prop := {
  i_var : forall x v, vars s x = Some v -> v_alloc v = al /\
            match v_ptr v with
            | None => v_tot v = 0
            | Some b => exists d, heap s b = Some (al, d) /\ length d = v_tot v
            end;
  i_own : forall x y vx vy b, vars s x = Some vx -> vars s y = Some vy -> v_ptr vx = Some b -> v_ptr vy = Some b -> x = y;
  i_leak : forall b, heap s b <> None -> exists x v, vars s x = Some v /\ v_ptr v = Some b;
  i_next : forall b, hnext s <= b -> heap s b = None }.

Definition agrees (s : hstate) (m : vstore) : Prop := forall x, view s x = m x.

Lemma updf_eq {A} (m : nat -> A) k v : updf m k v k = v.
Proof. unfold updf. now rewrite Nat.eqb_refl. Qed.
Lemma updf_ne {A} (m : nat -> A) k v q : q <> k -> updf m k v q = m q.
Proof. unfold updf. intros H. now destruct (Nat.eqb_spec q k). Qed.

Ltac uf := unfold updf in *; repeat match goal with
  | H : context [Nat.eqb ?a ?b] |- _ => destruct (Nat.eqb_spec a b); try subst
  | |- context [Nat.eqb ?a ?b] => destruct (Nat.eqb_spec a b); try subst
  end.

Lemma view_alive al s m x : hinv al s -> agrees s m -> (vars s x = None <-> m x = None).
Proof.
  intros I A. rewrite <- A. unfold view. destruct (vars s x) as [v|] eqn:E; [|tauto].
  destruct (i_var al s I x v E) as [_ H]. destruct (v_ptr v) as [b|]; [|split; discriminate].
  destruct H as (d & -> & _). split; discriminate.
Qed.

Lemma view_val al s m x a : hinv al s -> agrees s m -> m x = Some a ->
  exists v, vars s x = Some v /\ v_alloc v = al /\ v_exts v = exts a /\ read_buf (heap s) (v_ptr v) = Ok (flat a) /\
  v_tot v = length (flat a) /\ (v_ptr v = None -> flat a = []).
Proof.
  intros I A Hm. rewrite <- A in Hm. unfold view in Hm. destruct (vars s x) as [v|] eqn:E; [|discriminate].
  destruct (i_var al s I x v E) as [Hal H]. exists v. split; [reflexivity|]. split; [exact Hal|].
  destruct (v_ptr v) as [b|] eqn:Ep.
  - destruct H as (d & Hd & Hl). rewrite Hd in Hm. injection Hm as <-. cbn. rewrite Hd. auto.
    repeat split; trivial; try discriminate. now symmetry.
  - injection Hm as <-. cbn. repeat split; trivial.
Qed.

Lemma free_own al s x v : hinv al s -> vars s x = Some v ->
  forall n d al', n = hnext s -> 
  exists h2, free_buf (updf (heap s) n (Some (al', d))) (v_ptr v) (v_tot v) (v_alloc v) = Ok h2 /\
  (forall b, h2 b = if Nat.eqb b n then Some (al', d) else if (match v_ptr v with Some p => Nat.eqb b p | None => false end) then None else heap s b).
Proof.
  intros I E n d al' ->. destruct (i_var al s I x v E) as [Hal H]. unfold free_buf.
  destruct (v_ptr v) as [b|] eqn:Ep.
  - destruct H as (d0 & Hd & Hl).
    assert (b <> hnext s). { intros ->. rewrite (i_next al s I) in Hd by lia. discriminate. }
    rewrite updf_ne by assumption. rewrite Hd, Hal, Nat.eqb_refl. rewrite Hl, Nat.eqb_refl. cbn [andb].
    eexists; split; [reflexivity|]. intros q. unfold updf.
    destruct (Nat.eqb_spec q b); destruct (Nat.eqb_spec q (hnext s)); try subst; trivial. contradiction.
  - rewrite H. cbn. eexists; split; [reflexivity|]. intros q. reflexivity.
Qed.
Lemma free_own0 al s x v : hinv al s -> vars s x = Some v ->
  exists h2, free_buf (heap s) (v_ptr v) (v_tot v) (v_alloc v) = Ok h2 /\
  (forall b, h2 b = if (match v_ptr v with Some p => Nat.eqb b p | None => false end) then None else heap s b).
Proof.
  intros I E. destruct (i_var al s I x v E) as [Hal H]. unfold free_buf.
  destruct (v_ptr v) as [b|] eqn:Ep.
  - destruct H as (d0 & Hd & Hl).
    rewrite Hd, Hal, Nat.eqb_refl. rewrite Hl, Nat.eqb_refl. cbn [andb].
    eexists; split; [reflexivity|]. intros q. reflexivity.
  - rewrite H. cbn. eexists; split; [reflexivity|]. intros q. reflexivity.
Qed.

(** Giving variable [x] a fresh block with contents [d]; its previous block (if any) goes. *)
Lemma replace_ok al s m x es d h2 : hinv al s -> agrees s m ->
  (forall b, h2 b = if Nat.eqb b (hnext s) then Some (al, d)
                    else if (match vars s x with Some v => match v_ptr v with Some p => Nat.eqb b p | None => false end | None => false end)
                         then None else heap s b) ->
  let s' := HState h2 (S (hnext s)) (updf (vars s) x (Some (AVar es (length d) (Some (hnext s)) al))) in
  hinv al s' /\ agrees s' (updf m x (Some (MArr es d))).
Proof.
  intros I A Hh s'. 
  assert (Hfresh : forall y v, vars s y = Some v -> v_ptr v <> Some (hnext s)).
  { intros y v E Hp. destruct (i_var al s I y v E) as [_ H]. rewrite Hp in H. destruct H as (d0 & Hd & _).
    rewrite (i_next al s I) in Hd by lia. discriminate. }
  assert (Hother : forall y v b, y <> x -> vars s y = Some v -> v_ptr v = Some b -> h2 b = heap s b).
  { intros y v b Hne E Hp. rewrite Hh. destruct (Nat.eqb_spec b (hnext s)) as [->|]; [now apply Hfresh in E|].
    destruct (vars s x) as [vx|] eqn:Ex; [|reflexivity]. destruct (v_ptr vx) as [p|] eqn:Epx; [|reflexivity].
    destruct (Nat.eqb_spec b p) as [->|]; [|reflexivity].
    exfalso. apply Hne. eapply (i_own al s I); eassumption. }
  split.
  - constructor; cbn [vars heap hnext s'].
    + intros y v Hy. unfold updf in Hy. destruct (Nat.eqb_spec y x) as [->|Hne].
      * injection Hy as <-. cbn. split; [reflexivity|]. exists d. split; [|reflexivity]. now rewrite Hh, Nat.eqb_refl.
      * destruct (i_var al s I y v Hy) as [Hal H]. split; [exact Hal|].
        destruct (v_ptr v) as [b|] eqn:Ep; [|exact H]. destruct H as (d0 & Hd & Hl). exists d0. split; [|exact Hl].
        now rewrite (Hother y v b).
    + intros y z vy vz b Hy Hz Py Pz. unfold updf in Hy, Hz.
      destruct (Nat.eqb_spec y x) as [->|Hny]; destruct (Nat.eqb_spec z x) as [->|Hnz]; trivial.
      * injection Hy as <-. cbn in Py. injection Py as <-. now apply Hfresh in Hz.
      * injection Hz as <-. cbn in Pz. injection Pz as <-. now apply Hfresh in Hy.
      * eapply (i_own al s I); eassumption.
    + intros b Hb. rewrite Hh in Hb. destruct (Nat.eqb_spec b (hnext s)) as [Eb|Hne].
      * exists x. eexists. rewrite updf_eq, Eb. split; reflexivity.
      * destruct (vars s x) as [vx|] eqn:Ex.
        -- destruct (v_ptr vx) as [p|] eqn:Ep.
           ++ destruct (Nat.eqb_spec b p) as [Ebp|Hbp]; [congruence|].
              destruct (i_leak al s I b Hb) as (y & v & Hy & Pv). exists y, v. split; [|exact Pv].
              rewrite updf_ne; [exact Hy|]. intros ->. congruence.
           ++ destruct (i_leak al s I b Hb) as (y & v & Hy & Pv). exists y, v. split; [|exact Pv].
              rewrite updf_ne; [exact Hy|]. intros ->. congruence.
        -- destruct (i_leak al s I b Hb) as (y & v & Hy & Pv). exists y, v. split; [|exact Pv].
           rewrite updf_ne; [exact Hy|]. intros ->. congruence.
    + intros b Hb. rewrite Hh. destruct (Nat.eqb_spec b (hnext s)); [lia|].
      destruct (match vars s x with Some _ => _ | None => _ end); [reflexivity|]. apply (i_next al s I). lia.
  - intros y. unfold view. cbn [vars heap s']. unfold updf. destruct (Nat.eqb_spec y x) as [->|Hne].
    + cbn. now rewrite Hh, Nat.eqb_refl.
    + rewrite <- A. unfold view. destruct (vars s y) as [v|] eqn:Ey; [|reflexivity].
      destruct (v_ptr v) as [b|] eqn:Ep; [|reflexivity]. now rewrite (Hother y v b).
Qed.

(** A new variable without elements and without block. *)
Lemma empty_ok al s m x es : hinv al s -> agrees s m -> vars s x = None ->
  let s' := HState (heap s) (hnext s) (updf (vars s) x (Some (AVar es 0 None al))) in
  hinv al s' /\ agrees s' (updf m x (Some (MArr es []))).
Proof.
  intros I A Hx s'. split.
  - constructor; cbn [vars heap hnext s'].
    + intros y v Hy. unfold updf in Hy. destruct (Nat.eqb_spec y x) as [->|Hne].
      * injection Hy as <-. cbn. auto.
      * now apply (i_var al s I y).
    + intros y z vy vz b Hy Hz Py Pz. unfold updf in Hy, Hz.
      destruct (Nat.eqb_spec y x) as [->|Hny]; destruct (Nat.eqb_spec z x) as [->|Hnz]; trivial.
      * injection Hy as <-. discriminate.
      * injection Hz as <-. discriminate.
      * eapply (i_own al s I); eassumption.
    + intros b Hb. destruct (i_leak al s I b Hb) as (y & v & Hy & Pv). exists y, v. split; [|exact Pv].
      rewrite updf_ne; [exact Hy|]. congruence.
    + apply (i_next al s I).
  - intros y. unfold view. cbn [vars heap s']. unfold updf. destruct (Nat.eqb_spec y x) as [->|Hne]; [reflexivity|].
    apply A.
Qed.

(** Two variables exchange what they own. *)
Lemma exchange_ok al s m x y vx vy a b : hinv al s -> agrees s m -> vars s x = Some vx -> vars s y = Some vy ->
  m x = Some a -> m y = Some b -> x <> y ->
  let s' := HState (heap s) (hnext s) (updf (updf (vars s) x (Some (AVar (v_exts vy) (v_tot vy) (v_ptr vy) al)))
                                             y (Some (AVar (v_exts vx) (v_tot vx) (v_ptr vx) al))) in
  hinv al s' /\ agrees s' (updf (updf m x (Some b)) y (Some a)).
Proof.
  intros I A Hx Hy Ha Hb Hne s'.
  assert (Hown : forall z v, vars s' z = Some v -> exists z' v', vars s z' = Some v' /\ v_ptr v' = v_ptr v /\
            z' = if Nat.eqb z x then y else if Nat.eqb z y then x else z).
  { intros z v Hz. cbn [vars s'] in Hz. unfold updf in Hz. destruct (Nat.eqb_spec z y) as [->|Hzy].
    - injection Hz as <-. exists x, vx. cbn. destruct (Nat.eqb_spec y x); [congruence|]. auto.
    - destruct (Nat.eqb_spec z x) as [->|Hzx].
      + injection Hz as <-. exists y, vy. cbn. auto.
      + exists z, v. auto. }
  split.
  - constructor.
    + intros z v Hz. cbn [vars s'] in Hz. unfold updf in Hz. destruct (Nat.eqb_spec z y) as [->|Hzy].
      * injection Hz as <-. cbn. split; [reflexivity|]. now destruct (i_var al s I x vx Hx).
      * destruct (Nat.eqb_spec z x) as [->|Hzx].
        -- injection Hz as <-. cbn. split; [reflexivity|]. now destruct (i_var al s I y vy Hy).
        -- now apply (i_var al s I z).
    + intros z1 z2 v1 v2 p H1 H2 P1 P2.
      destruct (Hown _ _ H1) as (u1 & w1 & E1 & Q1 & X1). destruct (Hown _ _ H2) as (u2 & w2 & E2 & Q2 & X2).
      assert (u1 = u2) by (apply (i_own al s I _ _ w1 w2 p E1 E2); congruence).
      rewrite X1, X2 in H.
      destruct (Nat.eqb_spec z1 x); destruct (Nat.eqb_spec z1 y); destruct (Nat.eqb_spec z2 x); destruct (Nat.eqb_spec z2 y); congruence.
    + intros p Hp. destruct (i_leak al s I p Hp) as (z & v & Hz & Pv). cbn [vars s'].
      destruct (Nat.eqb_spec z x) as [->|Hzx].
      * exists y. eexists. rewrite updf_eq. split; [reflexivity|]. cbn. congruence.
      * destruct (Nat.eqb_spec z y) as [->|Hzy].
        -- exists x. eexists. rewrite updf_ne, updf_eq by congruence. split; [reflexivity|]. cbn. congruence.
        -- exists z, v. rewrite !updf_ne by assumption. auto.
    + apply (i_next al s I).
  - intros z. unfold view. cbn [vars heap s']. unfold updf. destruct (Nat.eqb_spec z y) as [->|Hzy].
    + cbn. rewrite <- Ha, <- A. unfold view. now rewrite Hx.
    + destruct (Nat.eqb_spec z x) as [->|Hzx]; [|apply A].
      cbn. rewrite <- Hb, <- A. unfold view. now rewrite Hy.
Qed.

Lemma agrees_ext s m m' : (forall x, m x = m' x) -> agrees s m -> agrees s m'.
Proof. intros H A x. now rewrite A. Qed.

Lemma resize_same_size {A} (dflt : A) a dim e : nth_error (exts a) dim = Some e -> resize dflt a dim e = Ok a.
Proof. intros H. unfold resize. now rewrite H, Nat.ltb_irrefl. Qed.

(** One step. *)
Lemma hstep_ok tr al s m o m' : hinv al s -> agrees s m -> one_alloc al [o] -> vstep m o = Ok m' ->
  exists s', hstep tr s o = Ok s' /\ hinv al s' /\ agrees s' m'.
Proof.
  intros I A Hal Hv. destruct o as [x al' es vals|x y|x y|x y|x y|x y|x k v|x dim size|x]; cbn [vstep hstep] in *.
  - (* new *)
    apply Forall_inv in Hal. cbn in Hal. subst al'.
    destruct (m x) as [a|] eqn:Em; [discriminate|]. pose proof (proj2 (view_alive al s m x I A) Em) as Ex. rewrite Ex.
    destruct (Nat.eqb_spec (length vals) (prod es)) as [Hl|]; [|discriminate]. injection Hv as <-.
    unfold alloc_nonempty. destruct vals as [|v0 vals]; cbn beta iota zeta.
    + eexists; split; [reflexivity|]. now apply empty_ok.
    + eexists; split; [reflexivity|]. apply replace_ok; trivial. intros b. rewrite Ex. reflexivity.
  - (* copy *)
    destruct (m x) as [a|] eqn:Em; [discriminate|]. pose proof (proj2 (view_alive al s m x I A) Em) as Ex. rewrite Ex.
    destruct (m y) as [b|] eqn:Eb; [|discriminate]. injection Hv as <-.
    destruct (view_val al s m y b I A Eb) as (vy & Ey & Aly & Exy & Rd & Tot & _). rewrite Ey, Rd. cbn [obind].
    rewrite <- Tot, Nat.eqb_refl. unfold alloc_nonempty. rewrite Aly, Exy, Tot. destruct b as [eb fb]. cbn [exts flat].
    destruct fb as [|v0 fb]; cbn beta iota zeta.
    + eexists; split; [reflexivity|]. now apply empty_ok.
    + eexists; split; [reflexivity|]. apply replace_ok; trivial. intros p. rewrite Ex. reflexivity.
  - (* move *)
    destruct (m x) as [a|] eqn:Em; [discriminate|]. pose proof (proj2 (view_alive al s m x I A) Em) as Ex. rewrite Ex.
    destruct (m y) as [b|] eqn:Eb; [|discriminate]. injection Hv as <-.
    destruct (view_val al s m y b I A Eb) as (vy & Ey & Aly & Exy & Rd & Tot & _). rewrite Ey.
    assert (Hne : x <> y) by congruence.
    destruct (empty_ok al s m x (map (fun _ => 0) (v_exts vy)) I A Ex) as [I1 A1].
    set (s1 := HState _ _ _) in *.
    destruct (exchange_ok al s1 _ x y (AVar (map (fun _ => 0) (v_exts vy)) 0 None al) vy (MArr (map (fun _ => 0) (v_exts vy)) []) b I1 A1) as [I2 A2]; trivial.
    { cbn. now rewrite updf_eq. } { cbn. rewrite updf_ne by congruence. exact Ey. }
    { now rewrite updf_eq. } { rewrite updf_ne by congruence. exact Eb. }
    eexists; split; [reflexivity|]. rewrite Aly. cbn [v_exts v_tot v_ptr] in *.
    (* the two update chains agree pointwise *)
    split.
    + destruct I2 as [J1 J2 J3 J4]. cbn [vars heap hnext s1] in *.
      assert (Hp : forall z, updf (updf (updf (vars s) x (Some (AVar (map (fun _ => 0) (v_exts vy)) 0 None al))) x
                      (Some (AVar (v_exts vy) (v_tot vy) (v_ptr vy) al))) y (Some (AVar (map (fun _ => 0) (v_exts vy)) 0 None al)) z =
                     updf (updf (vars s) x (Some (AVar (v_exts vy) (v_tot vy) (v_ptr vy) al))) y
                      (Some (AVar (map (fun _ => 0) (v_exts vy)) 0 None al)) z).
      { intros z. unfold updf. destruct (Nat.eqb z y), (Nat.eqb z x); reflexivity. }
      constructor; cbn [vars heap hnext].
      * intros z v Hz. rewrite <- Hp in Hz. now apply (J1 z).
      * intros z1 z2 v1 v2 p H1 H2. rewrite <- Hp in H1, H2. now apply (J2 z1 z2).
      * intros p Hpp. destruct (J3 p Hpp) as (z & v & Hz & Pv). exists z, v. now rewrite <- Hp.
      * exact J4.
    + intros z. specialize (A2 z). unfold view in *. cbn [vars heap s1] in *. unfold updf in *.
      unfold empty_like. rewrite <- Exy. destruct (Nat.eqb z y), (Nat.eqb z x); exact A2.
  - (* assign *)
    destruct (m x) as [a|] eqn:Em; [|discriminate]. destruct (m y) as [b|] eqn:Eb; [|discriminate]. injection Hv as <-.
    destruct (view_val al s m x a I A Em) as (vx & Ex & Alx & _).
    destruct (view_val al s m y b I A Eb) as (vy & Ey & Aly & Exy & Rd & Tot & _). rewrite Ex, Ey.
    destruct (Nat.eqb_spec x y) as [->|Hne].
    { exists s. split; [reflexivity|]. split; [exact I|]. apply (agrees_ext s m); [|exact A].
      intros z. unfold updf. destruct (Nat.eqb_spec z y) as [->|]; congruence. }
    rewrite Rd. cbn [obind]. rewrite <- Tot, Nat.eqb_refl.
    replace (if pocca tr then v_alloc vy else v_alloc vx) with al by (destruct (pocca tr); congruence).
    destruct (free_own al s x vx I Ex (hnext s) (flat b) al eq_refl) as (h2 & Hf & Hh). rewrite Hf. cbn [obind].
    eexists; split; [reflexivity|]. destruct b as [eb fb]. cbn [exts flat] in *. rewrite Exy, Tot.
    apply replace_ok; trivial. intros p. rewrite Ex. apply Hh.
  - (* move assign *)
    destruct (m x) as [a|] eqn:Em; [|discriminate]. destruct (m y) as [b|] eqn:Eb; [|discriminate]. injection Hv as <-.
    destruct (view_val al s m x a I A Em) as (vx & Ex & Alx & _).
    destruct (view_val al s m y b I A Eb) as (vy & Ey & Aly & _). rewrite Ex, Ey.
    destruct (Nat.eqb_spec x y) as [->|Hne].
    { exists s. split; [reflexivity|]. split; [exact I|]. apply (agrees_ext s m); [|exact A].
      intros z. unfold updf. destruct (Nat.eqb_spec z y) as [->|]; congruence. }
    rewrite Alx, Aly, Nat.eqb_refl.
    destruct (pocma tr); (eexists; split; [reflexivity|]; now apply exchange_ok).
  - (* swap *)
    destruct (m x) as [a|] eqn:Em; [|discriminate]. destruct (m y) as [b|] eqn:Eb; [|discriminate]. injection Hv as <-.
    destruct (view_val al s m x a I A Em) as (vx & Ex & Alx & _).
    destruct (view_val al s m y b I A Eb) as (vy & Ey & Aly & _). rewrite Ex, Ey.
    replace (if pocs tr then v_alloc vy else v_alloc vx) with al by (destruct (pocs tr); congruence).
    replace (if pocs tr then v_alloc vx else v_alloc vy) with al by (destruct (pocs tr); congruence).
    eexists; split; [reflexivity|].
    destruct (Nat.eq_dec x y) as [->|Hne]; [|now apply exchange_ok].
    (* self swap: nothing changes *)
    assert (vx = vy) by congruence. subst vy. assert (a = b) by congruence. subst b.
    assert (Hp : forall z, updf (updf (vars s) y (Some (AVar (v_exts vx) (v_tot vx) (v_ptr vx) al))) y
                 (Some (AVar (v_exts vx) (v_tot vx) (v_ptr vx) al)) z = vars s z).
    { intros z. unfold updf. destruct (Nat.eqb_spec z y) as [->|]; [|reflexivity]. rewrite Ex, <- Alx. now destruct vx. }
    destruct I as [J1 J2 J3 J4]. split.
    + constructor; cbn [vars heap hnext].
      * intros z v Hz. rewrite Hp in Hz. now apply (J1 z).
      * intros z1 z2 v1 v2 p H1 H2. rewrite Hp in H1, H2. now apply (J2 z1 z2).
      * intros p Hpp. destruct (J3 p Hpp) as (z & v & Hz & Pv). exists z, v. now rewrite Hp.
      * exact J4.
    + intros z. unfold view. cbn [vars heap]. rewrite Hp. refine (eq_trans (A z) _).
      unfold updf. destruct (Nat.eqb_spec z y) as [->|]; congruence.
  - (* write *)
    destruct (m x) as [a|] eqn:Em; [|discriminate].
    destruct (view_val al s m x a I A Em) as (vx & Ex & Alx & Exx & Rd & Tot & Hnil). rewrite Ex.
    destruct (Nat.ltb_spec k (length (flat a))) as [Hk|]; [|discriminate]. injection Hv as <-.
    destruct (v_ptr vx) as [b|] eqn:Ep; [|rewrite (Hnil eq_refl) in Hk; cbn in Hk; lia].
    destruct (i_var al s I x vx Ex) as [_ Hb]. rewrite Ep in Hb. destruct Hb as (d & Hd & Hl).
    cbn [read_buf] in Rd. rewrite Hd in Rd. injection Rd as Hda. subst d. rewrite Hd.
    destruct (Nat.ltb_spec k (length (flat a))) as [_|]; [|lia].
    eexists; split; [reflexivity|].
    assert (Ln : length (set_nth (flat a) k v) = length (flat a)) by now apply length_set.
    split.
    + constructor; cbn [vars heap hnext].
      * intros z w Hz. destruct (i_var al s I z w Hz) as [H1 H2]. split; [exact H1|].
        destruct (v_ptr w) as [p|] eqn:Epw; [|exact H2]. destruct H2 as (d & Hd' & Hl').
        unfold updf. destruct (Nat.eqb_spec p b) as [->|]; [|now exists d].
        eexists; split; [reflexivity|]. rewrite Hd' in Hd. injection Hd as ->. congruence.
      * exact (i_own al s I).
      * intros p Hp. apply (i_leak al s I). unfold updf in Hp. destruct (Nat.eqb_spec p b) as [Epb|]; [rewrite Epb; congruence|exact Hp].
      * intros p Hp. unfold updf. destruct (Nat.eqb_spec p b) as [->|]; [|now apply (i_next al s I)].
        rewrite (i_next al s I) in Hd by assumption. discriminate.
    + intros z. unfold view. cbn [vars heap]. unfold updf. destruct (Nat.eqb_spec z x) as [->|Hzx].
      * rewrite Ex, Ep, Nat.eqb_refl. now rewrite Exx.
      * rewrite <- A. unfold view. destruct (vars s z) as [w|] eqn:Ez; [|reflexivity].
        destruct (v_ptr w) as [p|] eqn:Epw; [|reflexivity]. destruct (Nat.eqb_spec p b) as [->|]; [|reflexivity].
        exfalso. apply Hzx. eapply (i_own al s I); eassumption.
  - (* resize *)
    destruct (m x) as [a|] eqn:Em; [|discriminate].
    destruct (view_val al s m x a I A Em) as (vx & Ex & Alx & Exx & Rd & Tot & _). rewrite Ex, Rd. cbn [obind].
    assert (Ha : MArr (v_exts vx) (flat a) = a) by (rewrite Exx; now destruct a). rewrite Ha, Exx.
    destruct (nth_error (exts a) dim) as [e|] eqn:Ee.
    2:{ unfold resize in Hv. rewrite Ee in Hv. discriminate. }
    destruct (Nat.eqb_spec e size) as [->|Hne].
    { rewrite (resize_same_size 0%Z a dim size Ee) in Hv. injection Hv as <-. exists s. split; [reflexivity|].
      split; [exact I|]. apply (agrees_ext s m); [|exact A].
      intros z. unfold updf. destruct (Nat.eqb_spec z x) as [->|]; congruence. }
    destruct (resize 0%Z a dim size) as [r| |]; try discriminate. injection Hv as <-. cbn [obind].
    destruct (free_own al s x vx I Ex (hnext s) (flat r) al eq_refl) as (h2 & Hf & Hh). rewrite Alx in *. rewrite Hf. cbn [obind].
    eexists; split; [reflexivity|]. destruct r as [er fr]. cbn [exts flat].
    apply replace_ok; trivial. intros p. rewrite Ex. apply Hh.
  - (* destroy *)
    destruct (m x) as [a|] eqn:Em; [|discriminate]. injection Hv as <-.
    destruct (view_val al s m x a I A Em) as (vx & Ex & Alx & Exx & Rd & Tot & _). rewrite Ex.
    destruct (free_own0 al s x vx I Ex) as (h2 & Hf & Hh).
    assert (Hfin : exists s', match v_ptr vx with
                | None => Ok (HState (heap s) (hnext s) (updf (vars s) x None))
                | Some _ => obind (free_buf (heap s) (v_ptr vx) (v_tot vx) (v_alloc vx)) (fun h => Ok (HState h (hnext s) (updf (vars s) x None)))
                end = Ok s' /\ (forall b, heap s' b = if (match v_ptr vx with Some p => Nat.eqb b p | None => false end) then None else heap s b)
                /\ hnext s' = hnext s /\ vars s' = updf (vars s) x None).
    { destruct (v_ptr vx) as [b|] eqn:Ep.
      - rewrite Hf. cbn [obind]. eexists; split; [reflexivity|]. cbn. auto.
      - eexists; split; [reflexivity|]. cbn. auto. }
    destruct Hfin as (s' & Hs & Hheap & Hn & Hvars). exists s'. split; [exact Hs|].
    assert (Hother : forall y v b, y <> x -> vars s y = Some v -> v_ptr v = Some b -> heap s' b = heap s b).
    { intros y v b Hne E Hp. rewrite Hheap. destruct (v_ptr vx) as [p|] eqn:Epx; [|reflexivity].
      destruct (Nat.eqb_spec b p) as [->|]; [|reflexivity]. exfalso. apply Hne. eapply (i_own al s I); eassumption. }
    split.
    + constructor; rewrite ?Hvars, ?Hn.
      * intros z w Hz. unfold updf in Hz. destruct (Nat.eqb_spec z x) as [->|Hzx]; [discriminate|].
        destruct (i_var al s I z w Hz) as [H1 H2]. split; [exact H1|].
        destruct (v_ptr w) as [p|] eqn:Epw; [|exact H2]. now rewrite (Hother z w p).
      * intros y z vy vz b Hy Hz Py Pz. unfold updf in Hy, Hz.
        destruct (Nat.eqb_spec y x) as [->|Hny]; [discriminate|]. destruct (Nat.eqb_spec z x) as [->|Hnz]; [discriminate|].
        eapply (i_own al s I); eassumption.
      * intros b Hb. rewrite Hheap in Hb. 
        assert (Hb' : heap s b <> None) by (destruct (v_ptr vx) as [p|]; [destruct (Nat.eqb b p); congruence|exact Hb]).
        destruct (i_leak al s I b Hb') as (y & w & Hy & Pw). exists y, w. split; [|exact Pw].
        rewrite updf_ne; [exact Hy|]. intros ->. assert (w = vx) by congruence. subst w. rewrite Pw, Nat.eqb_refl in Hb. congruence.
      * intros b Hb. rewrite Hheap. rewrite (i_next al s I b Hb). destruct (v_ptr vx) as [p|]; [destruct (Nat.eqb b p)|]; reflexivity.
    + intros z. unfold view. rewrite Hvars. unfold updf. destruct (Nat.eqb_spec z x) as [->|Hzx]; [reflexivity|].
      rewrite <- A. unfold view. destruct (vars s z) as [w|] eqn:Ez; [|reflexivity].
      destruct (v_ptr w) as [p|] eqn:Epw; [|reflexivity]. now rewrite (Hother z w p).
Qed.

Lemma hinit_inv al : hinv al hinit.
Proof. constructor; cbn; try discriminate; congruence. Qed.

Lemma hrun_ok tr al os : forall s m m', hinv al s -> agrees s m -> one_alloc al os -> vrun m os = Ok m' ->
  exists s', hrun tr s os = Ok s' /\ hinv al s' /\ agrees s' m'.
Proof.
  induction os as [|o os IH]; intros s m m' I A Hal Hv; cbn [vrun hrun] in *.
  - injection Hv as <-. exists s. auto.
  - destruct (vstep m o) as [m1| |] eqn:E; try discriminate. cbn [obind] in Hv.
    inversion Hal as [|? ? Ho Hos]; subst.
    destruct (hstep_ok tr al s m o m1 I A (Forall_cons _ Ho (Forall_nil _)) E) as (s1 & -> & I1 & A1). cbn [obind].
    now apply (IH s1 m1).
Qed.

(** Refinement from the start, no leak once everything is destroyed. *)
Lemma arrays_are_values tr al os m : one_alloc al os -> vrun (fun _ => None) os = Ok m ->
  exists s, hrun tr hinit os = Ok s /\ (forall x, view s x = m x) /\
  (forall x y vx vy b, x <> y -> vars s x = Some vx -> vars s y = Some vy -> v_ptr vx = Some b -> v_ptr vy <> Some b) /\
  ((forall x, m x = None) -> forall b, heap s b = None).
Proof.
  intros Hal Hv. destruct (hrun_ok tr al os hinit (fun _ => None) m (hinit_inv al)) as (s & Hs & I & A); trivial.
  { intros x. reflexivity. }
  exists s. split; [exact Hs|]. split; [exact A|]. split.
  - intros x y vx vy b Hne Hx Hy Px Py. apply Hne. eapply (i_own al s I); eassumption.
  - intros Hm b. destruct (heap s b) as [c|] eqn:E; [|reflexivity].
    destruct (i_leak al s I b) as (x & v & Hx & _); [congruence|].
    pose proof (proj2 (view_alive al s m x I A) (Hm x)). congruence.
Qed.

(** With two allocators that are not interchangeable, move assignment hands the target's old block to an object
    that will return it through the other allocator. *)
Lemma move_assign_mixed_allocators :
  let prog := [HNew 0 0 [1] [5%Z]; HNew 1 1 [1] [6%Z]; HMoveAssign 0 1; HDestroy 1] in
  is_ok (vrun (fun _ => None) prog) /\ hrun std_traits hinit prog = UB.
Proof. split; [eexists|]; vm_compute; reflexivity. Qed.
