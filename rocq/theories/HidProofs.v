(** Proofs about identifiers: HidModel.v against HidSpec.v. *)
From Coq Require Import List Arith Bool Lia.
From Verif Require Import HidModel HidSpec.
Import ListNotations.
Local Open Scope hid_scope.

(** ** The invariant *)

Definition keeps (p : what -> Prop) (w w' : world) : Prop := tidy p w w' /\ sound w'.

Definition bal (p : what -> Prop) (q : bool) {A} (m : M A) : Prop :=
  forall o w, sound w -> (q = false -> returned (fst (m o w))) -> keeps p w (snd (m o w)).

Lemma keeps_refl : forall p w, sound w -> keeps p w w.
Proof. intros p w H. split; [|exact H]. repeat split; auto. Qed.

Lemma keeps_trans : forall p a b c, keeps p a b -> keeps p b c -> keeps p a c.
Proof.
  intros p a b c ((A1 & A2 & A3 & A4) & _) ((B1 & B2 & B3 & B4) & Sc).
  split; [|exact Sc]. split; [auto|]. split; [|split; [congruence|lia]].
  intros i k Hi. destruct (B2 i k Hi) as [Hb|[Hb Np]].
  - apply A2, Hb.
  - right. split; [lia|exact Np].
Qed.

Lemma bal_weaken : forall p A (m : M A), bal p true m -> bal p false m.
Proof. intros p A m H o w S _. apply H; [exact S|discriminate]. Qed.

Lemma bal_ret : forall p q A (a : A), bal p q (ret a).
Proof. intros p q A a o w S _. apply keeps_refl, S. Qed.

Lemma bal_throw : forall p q A, bal p q (@throw A).
Proof. intros p q A o w S _. apply keeps_refl, S. Qed.

Lemma bal_bind : forall p q A B (m : M A) (k : A -> M B),
  bal p q m -> (forall a, bal p q (k a)) -> bal p q (bind m k).
Proof.
  intros p q A B m k Hm Hk o w S R. unfold bind in *.
  specialize (Hm o w S). destruct (m o w) as [[a|] w1] eqn:E; cbn [fst snd] in *.
  - assert (K : keeps p w w1) by (apply Hm; intros _; exists a; reflexivity).
    eapply keeps_trans; [exact K|]. apply Hk; [|exact R].
    apply K.
  - apply Hm. intros Q. destruct (R Q) as [b Hb]. discriminate.
Qed.

Lemma bal_ask : forall p q, bal p q ask.
Proof. intros p q o w S _. split; [|exact S]. repeat split; cbn; auto. Qed.

Lemma bal_must : forall p q, bal p q must.
Proof.
  intros p q. apply bal_bind; [apply bal_ask|]. intros a.
  destruct (a =? 0); [apply bal_throw|apply bal_ret].
Qed.

Lemma bal_attempt : forall p q (m : M unit), bal p true m -> bal p q (attempt m).
Proof. intros p q m H o w S _. apply H; [exact S|discriminate]. Qed.

Lemma bal_times : forall p q n m, bal p q m -> bal p q (times n m).
Proof.
  intros p q n m H. induction n; cbn [times]; [apply bal_ret|].
  apply bal_bind; [exact H|intros _; exact IHn].
Qed.

Lemma bal_each : forall p q A (l : list A) m,
  (forall a, In a l -> bal p q (m a)) -> bal p q (each l m).
Proof.
  intros p q A l m H. induction l as [|a l IH]; cbn [each]; [apply bal_ret|].
  apply bal_bind; [apply H; left; reflexivity|]. intros _. apply IH. intros b Hb. apply H. right; exact Hb.
Qed.

(** ** Closing what was just taken *)

Definition pushed (k : what) (w : world) : world :=
  World ((w_next w, k) :: w_open w) (S (w_next w)) (w_asked w) (w_wrong w).

Lemma pushed_sound : forall k w, sound w -> sound (pushed k w).
Proof.
  intros k w H i k' [E|Hi]; cbn [w_next pushed]; [injection E as E1 _; subst; cbn [w_next pushed]; lia|].
  apply H in Hi. cbn [w_next pushed]. lia.
Qed.

Lemma in_closed : forall (l : list (nat * what)) i j k,
  In (j, k) (filter (fun e => negb (fst e =? i)) l) <-> In (j, k) l /\ j <> i.
Proof.
  intros l i j k. rewrite filter_In. cbn [fst]. rewrite negb_true_iff, Nat.eqb_neq. tauto.
Qed.

Lemma is_open_in : forall i k w, In (i, k) (w_open w) -> is_open i w = true.
Proof.
  intros i k w H. apply existsb_exists. exists (i, k). split; [exact H|apply Nat.eqb_refl].
Qed.

Lemma give_back : forall p k o w w', sound w -> keeps p (pushed k w) w' ->
  exists w'', give (Some (w_next w)) o w' = (Ret tt, w'') /\ keeps p w w''.
Proof.
  intros p k o w w' Sw ((K1 & K2 & K3 & K4) & Sx). cbn [pushed w_open w_next w_wrong] in *.
  unfold give. rewrite (is_open_in (w_next w) k) by (apply K1; left; reflexivity).
  eexists. split; [reflexivity|]. split.
  - split; [|split; [|split; [exact K3|cbn [w_next]; lia]]]; cbn [w_open]; intros i k' Hi.
    + apply in_closed. split; [apply K1; right; exact Hi|]. apply Sw in Hi. lia.
    + apply in_closed in Hi. destruct Hi as [Hi Ne].
      destruct (K2 i k' Hi) as [[E|Hw]|[L Np]]; [congruence|left; exact Hw|right; split; [lia|exact Np]].
  - intros i k' Hi. cbn [w_open w_next] in *. apply in_closed in Hi. eapply Sx, Hi.
Qed.

(** ** Bracketed programs *)

(** [t] takes one identifier or none. *)
Definition taker (t : M hid) : Prop :=
  forall o w, sound w -> exists w0, (fst (t o w) = Ret None /\ snd (t o w) = w0 \/
    exists k, fst (t o w) = Ret (Some (w_next w0)) /\ snd (t o w) = pushed k w0) /\
    (forall p, keeps p w w0) /\ w_next w0 = w_next w.

Lemma taker_take : forall k, taker (take k).
Proof.
  intros k o w S. unfold take, bind, ask.
  exists (World (w_open w) (w_next w) (Datatypes.S (w_asked w)) (w_wrong w)).
  destruct (o (w_asked w) =? 0); cbn.
  - split; [left; split; reflexivity|]. split; [intros p; apply (bal_ask p true o w S); discriminate|reflexivity].
  - split; [right; exists k; split; reflexivity|].
    split; [intros p; apply (bal_ask p true o w S); discriminate|reflexivity].
Qed.

Lemma taker_none : taker (ask ;; ret None).
Proof.
  intros o w S. unfold bind, ask, ret.
  exists (World (w_open w) (w_next w) (Datatypes.S (w_asked w)) (w_wrong w)).
  split; [left; split; reflexivity|]. split; [intros p; apply (bal_ask p true o w S); discriminate|reflexivity].
Qed.

Lemma taker_in : forall l, taker (take_in l).
Proof. intros [f|]; [apply taker_take|apply taker_none]. Qed.

Lemma taker_create : forall f, taker (h5f_create f).
Proof.
  intros f o w S. unfold h5f_create.
  destruct (existsb _ _); [apply (taker_none o w S)|apply (taker_take (File f) o w S)].
Qed.

Lemma taker_ask : forall t, taker t -> taker (ask ;; t).
Proof.
  intros t T o w S. unfold bind at 1 2 3 4. unfold ask at 1 2 3 4.
  assert (S' : sound (World (w_open w) (w_next w) (Datatypes.S (w_asked w)) (w_wrong w))) by exact S.
  destruct (T o _ S') as (w0 & C & K & E). exists w0. split; [exact C|]. split; [|exact E].
  intros p. eapply keeps_trans; [apply (bal_ask p true o w S); discriminate|apply K].
Qed.

Lemma keeps_sound : forall p w w', keeps p w w' -> sound w'.
Proof. intros p w w' [_ H]. exact H. Qed.

(** The identifier is closed whatever the body does. *)
Lemma bal_closing : forall p q A (t : M hid) (body : hid -> M A),
  taker t -> (forall h, bal p q (body h)) -> bal p q (bind t (fun h => finally (body h) (give h))).
Proof.
  intros p q A t body T B o w S R. unfold bind in *.
  destruct (T o w S) as (w0 & C & K & _). pose proof (keeps_sound _ _ _ (K p)) as S0.
  destruct (t o w) as [r w1]. cbn [fst snd] in C.
  destruct C as [[-> ->]|(k & -> & ->)]; cbn [fst snd] in *; unfold finally in *.
  - specialize (B None o w0 S0). destruct (body None o w0) as [r w2]. cbn [give fst snd] in *.
    eapply keeps_trans; [apply K|]. apply B, R.
  - specialize (B (Some (w_next w0)) o (pushed k w0) (pushed_sound k w0 S0)).
    destruct (body (Some (w_next w0)) o (pushed k w0)) as [r w2]. cbn [fst snd] in *.
    destruct (give_back p k o w0 w2 S0) as (w3 & G & K3).
    { apply B. intros Q. specialize (R Q). destruct (give _ o w2). exact R. }
    rewrite G. cbn [snd]. eapply keeps_trans; [apply K|exact K3].
Qed.

Lemma bal_handle : forall p q A (t : M hid) (body : hid -> M A),
  taker t -> (forall h, bal p q (body h)) -> bal p q (handle t body).
Proof.
  intros p q A t body T B o w S R. unfold handle, bind in *.
  destruct (T o w S) as (w0 & C & K & _). pose proof (keeps_sound _ _ _ (K p)) as S0.
  destruct (t o w) as [r w1] eqn:E. cbn [fst snd] in C.
  destruct C as [[-> ->]|(k & -> & ->)]; cbn [fst snd throw] in *; [apply K|].
  unfold finally in *.
  specialize (B (Some (w_next w0)) o (pushed k w0) (pushed_sound k w0 S0)).
  destruct (body (Some (w_next w0)) o (pushed k w0)) as [r w2]. cbn [fst snd] in *.
  destruct (give_back p k o w0 w2 S0) as (w3 & G & K3).
  { apply B. intros Q. specialize (R Q). destruct (give _ o w2). exact R. }
  rewrite G. cbn [snd]. eapply keeps_trans; [apply K|exact K3].
Qed.

Lemma bal_handle_in : forall p q A l (body : loc -> M A),
  (forall l', bal p q (body l')) -> bal p q (handle_in l body).
Proof. intros. apply bal_handle; [apply taker_in|auto]. Qed.

Lemma bal_handle_mem : forall p q A (body : M A), bal p q body -> bal p q (handle_mem body).
Proof. intros. apply bal_handle; [apply taker_take|auto]. Qed.

(** The identifier is closed by hand after the body, which either does not throw or is looked at
    only when it returns. *)
Lemma bal_raw : forall p q A B (t : M hid) (body : hid -> M A) (k : A -> M B),
  taker t -> (forall h, bal p q (body h)) -> (q = true -> forall h, never_throws (body h)) ->
  (forall a, bal p q (k a)) ->
  bal p q (bind t (fun h => bind (body h) (fun a => bind (give h) (fun _ => k a)))).
Proof.
  intros p q A B t body k T Bd NT Hk o w S R. unfold bind in *.
  destruct (T o w S) as (w0 & C & K & _). pose proof (keeps_sound _ _ _ (K p)) as S0.
  destruct (t o w) as [r w1]. cbn [fst snd] in C.
  destruct C as [[-> ->]|(kd & -> & ->)]; cbn [fst snd] in *.
  - specialize (Bd None o w0 S0).
    destruct (body None o w0) as [[a|] w2] eqn:E; cbn [give fst snd] in *.
    + assert (K2 : keeps p w0 w2) by (apply Bd; intros _; exists a; reflexivity).
      eapply keeps_trans; [apply K|]. eapply keeps_trans; [exact K2|].
      apply Hk; [eapply keeps_sound; exact K2|exact R].
    + eapply keeps_trans; [apply K|]. apply Bd. intros Q. destruct (R Q); discriminate.
  - specialize (Bd (Some (w_next w0)) o (pushed kd w0) (pushed_sound kd w0 S0)).
    destruct (body (Some (w_next w0)) o (pushed kd w0)) as [[a|] w2] eqn:E; cbn [fst snd] in *.
    + destruct (give_back p kd o w0 w2 S0) as (w3 & G & K3).
      { apply Bd. intros _; exists a; reflexivity. }
      rewrite G in *. eapply keeps_trans; [apply K|]. eapply keeps_trans; [exact K3|].
      apply Hk; [eapply keeps_sound; exact K3|exact R].
    + exfalso. destruct q.
      * destruct (NT eq_refl (Some (w_next w0)) o (pushed kd w0)) as [a Ha]. rewrite E in Ha. discriminate.
      * destruct (R eq_refl); discriminate.
Qed.

(** ** Programs which do not throw *)

Lemma nt_ret : forall A (a : A), never_throws (ret a).
Proof. intros A a o w. exists a. reflexivity. Qed.
Lemma nt_ask : never_throws ask.
Proof. intros o w. eexists. reflexivity. Qed.
Lemma nt_give : forall h, never_throws (give h).
Proof. intros [i|] o w; exists tt; cbn; [destruct (is_open i w)|]; reflexivity. Qed.
Lemma nt_bind : forall A B (m : M A) (k : A -> M B),
  never_throws m -> (forall a, never_throws (k a)) -> never_throws (bind m k).
Proof.
  intros A B m k Hm Hk o w. unfold bind. destruct (Hm o w) as [a Ha].
  destruct (m o w) as [r w1]. cbn in Ha. subst r. apply Hk.
Qed.
Lemma nt_take : forall k, never_throws (take k).
Proof.
  intros k. apply nt_bind; [apply nt_ask|]. intros a. destruct (a =? 0); [apply nt_ret|].
  intros o w. eexists. reflexivity.
Qed.
Lemma nt_take_in : forall l, never_throws (take_in l).
Proof. intros [f|]; [apply nt_take|]. apply nt_bind; [apply nt_ask|intros; apply nt_ret]. Qed.
Lemma nt_times : forall n m, never_throws m -> never_throws (times n m).
Proof.
  intros n m H. induction n; cbn [times]; [apply nt_ret|]. apply nt_bind; auto.
Qed.

Lemma nt_add_attribute : forall l, never_throws (add_attribute l).
Proof.
  intros l. unfold add_attribute.
  repeat (apply nt_bind; [first [apply nt_take|apply nt_take_in|apply nt_ask|apply nt_give]|intros]).
  apply nt_give.
Qed.
Lemma nt_add_string : forall l, never_throws (add_string_attribute l).
Proof.
  intros l. unfold add_string_attribute.
  repeat (apply nt_bind; [first [apply nt_take|apply nt_take_in|apply nt_ask|apply nt_give]|intros]).
  apply nt_give.
Qed.

Ltac nt1 :=
  lazymatch goal with
  | |- never_throws (ret _) => apply nt_ret
  | |- never_throws ask => apply nt_ask
  | |- never_throws (give _) => apply nt_give
  | |- never_throws (take _) => apply nt_take
  | |- never_throws (take_in _) => apply nt_take_in
  | |- never_throws (add_attribute _) => apply nt_add_attribute
  | |- never_throws (add_string_attribute _) => apply nt_add_string
  | |- never_throws (times _ _) => apply nt_times
  | |- never_throws (bind _ _) => apply nt_bind; [|intros]
  end.
Ltac nt := repeat (nt1; cbv beta).

Lemma nt_own_body : forall b l, own_body b -> never_throws (serialize_body b l).
Proof. intros [] l H; cbn in H; try contradiction; unfold serialize_body; nt. Qed.
Lemma nt_own_track : forall t l, own_track t -> never_throws (serialize_track t l).
Proof. intros [] l H; cbn in H; try contradiction; unfold serialize_track; nt. Qed.

(** ** The functions of tools.h, tools.cpp and body.cpp, step by step *)

(** Since [w], the identifiers [hs] have been taken and are still to be given back; what else is
    open and new is not of the kinds [p]. *)
Definition owns (p : what -> Prop) (w : world) (hs : list nat) (w' : world) : Prop :=
  (forall i k, In (i, k) (w_open w) -> In (i, k) (w_open w')) /\
  (forall i k, In (i, k) (w_open w') -> In (i, k) (w_open w) \/ (w_next w <= i /\ (p k -> In i hs))) /\
  (forall i, In i hs -> w_next w <= i /\ exists k, In (i, k) (w_open w')) /\
  NoDup hs /\ w_wrong w' = w_wrong w /\ w_next w <= w_next w' /\ sound w'.

Lemma owns_start : forall p w, sound w -> owns p w [] w.
Proof.
  intros p w H. repeat split; auto; try constructor; try contradiction.
Qed.

Lemma owns_end : forall p w w', owns p w [] w' -> keeps p w w'.
Proof.
  intros p w w' (H1 & H2 & _ & _ & W & L & Sw). split; [|exact Sw]. split; [exact H1|]. split; [|auto].
  intros i k Hi. destruct (H2 i k Hi) as [H|[H N]]; [left; exact H|right; split; [exact H|exact N]].
Qed.

Lemma owns_push : forall p w hs w' k, owns p w hs w' -> owns p w (w_next w' :: hs) (pushed k w').
Proof.
  intros p w hs w' k (H1 & H2 & H3 & D & W & L & Sw). cbn [pushed w_open w_next w_wrong].
  split; [intros; right; apply H1; assumption|].
  split.
  { intros i k' [E|Hi].
    - injection E as <- _. right. split; [exact L|left; reflexivity].
    - destruct (H2 i k' Hi) as [H|[H N]]; [left; exact H|right; split; [exact H|right; auto]]. }
  split.
  { intros i [<-|Hi]; [split; [exact L|exists k; left; reflexivity]|].
    destruct (H3 i Hi) as (H & k' & Hk). split; [exact H|exists k'; right; exact Hk]. }
  split; [constructor; [|exact D]|].
  { intros Hi. destruct (H3 _ Hi) as (_ & k' & Hk). apply Sw in Hk. lia. }
  split; [exact W|]. split; [cbn; lia|]. apply pushed_sound, Sw.
Qed.

Lemma owns_push_free : forall p w hs w' k, ~ p k -> owns p w hs w' -> owns p w hs (pushed k w').
Proof.
  intros p w hs w' k Np (H1 & H2 & H3 & D & W & L & Sw). cbn [pushed w_open w_next w_wrong].
  split; [intros; right; apply H1; assumption|].
  split.
  { intros i k' [E|Hi].
    - injection E as <- <-. right. split; [exact L|contradiction].
    - apply H2, Hi. }
  split.
  { intros i Hi. destruct (H3 i Hi) as (H & k' & Hk). split; [exact H|exists k'; right; exact Hk]. }
  split; [exact D|]. split; [exact W|]. split; [cbn; lia|]. apply pushed_sound, Sw.
Qed.

Lemma owns_give : forall p w hs1 i hs2 w' o, sound w -> owns p w (hs1 ++ i :: hs2) w' ->
  exists w'', give (Some i) o w' = (Ret tt, w'') /\ owns p w (hs1 ++ hs2) w''.
Proof.
  intros p w hs1 i hs2 w' o S0 (H1 & H2 & H3 & D & W & L & Sw).
  destruct (H3 i) as (Li & k & Hk); [apply in_or_app; right; left; reflexivity|].
  unfold give. rewrite (is_open_in i k w' Hk). eexists. split; [reflexivity|].
  cbn [w_open w_next w_wrong].
  split; [intros j kj Hj; apply in_closed; split; [apply H1, Hj|apply S0 in Hj; lia]|].
  split.
  { intros j kj Hj. apply in_closed in Hj. destruct Hj as [Hj Ne].
    destruct (H2 j kj Hj) as [H|[H N]]; [left; exact H|right; split; [exact H|]]. intros Hp. specialize (N Hp).
    apply in_app_or in N. apply in_or_app. destruct N as [N|[N|N]]; [left; exact N|congruence|right; exact N]. }
  split.
  { intros j Hj.
    destruct (H3 j) as (Lj & kj & Hkj).
    { apply in_app_or in Hj. apply in_or_app. destruct Hj; [left|right; right]; assumption. }
    split; [exact Lj|]. exists kj. apply in_closed. split; [exact Hkj|].
    intros ->. apply NoDup_remove_2 in D. contradiction. }
  split; [eapply NoDup_remove_1; exact D|]. split; [exact W|]. split; [exact L|].
  intros j kj Hj. cbn [w_open w_next] in *. apply in_closed in Hj. eapply Sw. apply Hj.
Qed.

(** What [m] does from [w'], in the middle of something begun at [w]. *)
Definition goes {A} (m : M A) (o : answers) (w' : world) (Q : res A -> world -> Prop) : Prop :=
  Q (fst (m o w')) (snd (m o w')).

Section Goes.
Variables (p : what -> Prop) (w : world) (o : answers).
Hypothesis Sw : sound w.

Lemma goes_ret : forall A (a : A) w' (Q : res A -> world -> Prop), Q (Ret a) w' -> goes (ret a) o w' Q.
Proof. auto. Qed.
Lemma goes_throw : forall A w' (Q : res A -> world -> Prop), Q Exc w' -> goes throw o w' Q.
Proof. auto. Qed.
Lemma goes_assoc : forall A B C (m : M A) (k : A -> M B) (j : B -> M C) w' Q,
  goes (bind m (fun a => bind (k a) j)) o w' Q -> goes (bind (bind m k) j) o w' Q.
Proof.
  intros A B C m k j w' Q H. unfold goes, bind in *. destruct (m o w') as [[a|] w1]; exact H.
Qed.
Lemma goes_ret_bind : forall A B (a : A) (k : A -> M B) w' Q, goes (k a) o w' Q -> goes (bind (ret a) k) o w' Q.
Proof. auto. Qed.
Lemma goes_ask : forall B (k : nat -> M B) hs w' Q,
  owns p w hs w' -> (forall a w'', owns p w hs w'' -> goes (k a) o w'' Q) -> goes (bind ask k) o w' Q.
Proof. intros B k hs w' Q O H. unfold goes, bind, ask. apply H. exact O. Qed.
Lemma goes_take : forall B kd (k : hid -> M B) hs w' Q,
  owns p w hs w' ->
  (forall w'', owns p w hs w'' -> goes (k None) o w'' Q) ->
  (forall i w'', owns p w (i :: hs) w'' -> goes (k (Some i)) o w'' Q) -> goes (bind (take kd) k) o w' Q.
Proof.
  intros B kd k hs w' Q O H0 H1. unfold goes, bind, take. unfold bind, ask.
  destruct (o (w_asked w') =? 0); cbn [ret push].
  - apply H0, O.
  - apply (H1 (w_next w')).
    exact (owns_push p w hs (World (w_open w') (w_next w') (S (w_asked w')) (w_wrong w')) kd O).
Qed.
Lemma goes_take_free : forall B kd (k : hid -> M B) hs w' Q,
  ~ p kd -> owns p w hs w' ->
  (forall h w'', owns p w hs w'' -> goes (k h) o w'' Q) -> goes (bind (take kd) k) o w' Q.
Proof.
  intros B kd k hs w' Q Np O H. unfold goes, bind, take. unfold bind, ask.
  destruct (o (w_asked w') =? 0); cbn [ret push].
  - apply H, O.
  - apply (H (Some (w_next w'))).
    exact (owns_push_free p w hs (World (w_open w') (w_next w') (S (w_asked w')) (w_wrong w')) kd Np O).
Qed.
Lemma goes_take_in : forall B l (k : hid -> M B) hs w' Q,
  owns p w hs w' ->
  (forall w'', owns p w hs w'' -> goes (k None) o w'' Q) ->
  (forall i w'', owns p w (i :: hs) w'' -> goes (k (Some i)) o w'' Q) -> goes (bind (take_in l) k) o w' Q.
Proof.
  intros B [f|] k hs w' Q O H0 H1; [eapply goes_take; eassumption|].
  cbn [take_in]. apply goes_assoc. eapply goes_ask; [exact O|]. intros a w'' O'. apply goes_ret_bind, H0, O'.
Qed.
Lemma goes_give : forall B i hs1 hs2 (k : unit -> M B) w' Q,
  owns p w (hs1 ++ i :: hs2) w' ->
  (forall w'', owns p w (hs1 ++ hs2) w'' -> goes (k tt) o w'' Q) -> goes (bind (give (Some i)) k) o w' Q.
Proof.
  intros B i hs1 hs2 k w' Q O H. unfold goes, bind.
  destruct (owns_give p w hs1 i hs2 w' o Sw O) as (w'' & -> & O'). apply H, O'.
Qed.
Lemma goes_give_none : forall B (k : unit -> M B) w' Q, goes (k tt) o w' Q -> goes (bind (give None) k) o w' Q.
Proof. auto. Qed.
Lemma goes_last : forall (m : M unit) w' Q, goes (bind m (fun a => ret a)) o w' Q -> goes m o w' Q.
Proof.
  intros m w' Q H. unfold goes, bind, ret in *. destruct (m o w') as [[a|] w1]; exact H.
Qed.
End Goes.

(** Everything taken is given back. *)
Lemma bal_goes : forall p q A (m : M A),
  (forall o w, sound w -> goes m o w (fun r w' => (q = false -> returned r) -> keeps p w w')) -> bal p q m.
Proof. intros p q A m H o w S R. exact (H o w S R). Qed.

Ltac go1 :=
  lazymatch goal with
  | |- goes (bind (bind _ _) _) _ _ _ => apply goes_assoc
  | |- goes (bind (ret _) _) _ _ _ => apply goes_ret_bind
  | |- goes (bind (if ?c then _ else _) _) _ _ _ => destruct c
  | |- goes (if ?c then _ else _) _ _ _ => destruct c
  | |- goes (bind (on (Some _)) _) _ _ _ => cbv beta iota delta [on]
  | |- goes (bind (on None) _) _ _ _ => cbv beta iota delta [on]
  | |- goes (bind ask _) _ _ _ => eapply goes_ask; [eassumption|]; clear_owns; intros
  | |- goes (bind (take Free) _) _ _ _ =>
      first [ eapply goes_take_free; [solve [auto]|eassumption|]; clear_owns; intros
            | eapply goes_take; [eassumption| |]; clear_owns; intros ]
  | |- goes (bind (take _) _) _ _ _ => eapply goes_take; [eassumption| |]; clear_owns; intros
  | |- goes (bind (take_in _) _) _ _ _ => eapply goes_take_in; [eassumption| |]; clear_owns; intros
  | |- goes (bind (give None) _) _ _ _ => apply goes_give_none
  | |- goes (bind (give (Some ?i)) _) _ _ _ =>
      first [ eapply (goes_give _ _ _ ltac:(eassumption) _ i []); [cbn [app]; eassumption|]
            | eapply (goes_give _ _ _ ltac:(eassumption) _ i [_]); [cbn [app]; eassumption|]
            | eapply (goes_give _ _ _ ltac:(eassumption) _ i [_; _]); [cbn [app]; eassumption|] ];
      clear_owns; cbn [app]; intros
  | |- goes (ret _) _ _ _ => apply goes_ret
  | |- goes throw _ _ _ => apply goes_throw
  | |- goes (give _) _ _ _ => apply goes_last
  | |- goes (match ?h with Some _ => _ | None => _ end) _ _ _ => destruct h
  end
with clear_owns := match goal with H : owns _ _ _ _ |- _ => clear H end.

(** The rest of the program. *)
Lemma goes_bal : forall p q A (m : M A) o w w',
  owns p w [] w' -> bal p q m -> goes m o w' (fun r w'' => (q = false -> returned r) -> keeps p w w'').
Proof.
  intros p q A m o w w' O B. unfold goes. intros R. eapply keeps_trans; [apply owns_end; exact O|].
  apply B; [apply O|exact R].
Qed.

Ltac done := intros; first [ apply owns_end; assumption
  | exfalso; match goal with R : ?q = ?q -> returned Exc |- _ => destruct (R eq_refl); discriminate end ].
Ltac leaf p := apply bal_goes; intros o w Sw; pose proof (owns_start p _ Sw); repeat (go1; cbv beta iota); done.

Lemma bal_add_attribute : forall p q l, bal p q (add_attribute l).
Proof. intros p q l. unfold add_attribute. leaf p. Qed.

Lemma bal_add_string : forall p q l, ~ p Free -> bal p q (add_string_attribute l).
Proof.
  intros p q l Np. unfold add_string_attribute. apply bal_goes. intros o w Sw.
  pose proof (owns_start p _ Sw). eapply goes_take_free; [exact Np|eassumption|]. clear_owns. intros. clear Np. repeat (go1; cbv beta iota); done.
Qed.

Lemma bal_read_attribute : forall p q l, bal p q (read_attribute l).
Proof. intros p q l. unfold read_attribute. leaf p. Qed.

Lemma bal_read_string : forall p q l, bal p q (read_string_attribute l).
Proof. intros p q l. unfold read_string_attribute. leaf p. Qed.

Lemma bal_read_plain : forall p l, bal p false (read_plain l).
Proof. intros p l. unfold read_plain. leaf p. Qed.

Lemma bal_write_array : forall p q l c, bal p q (write_array l c).
Proof. intros p q l c. unfold write_array. leaf p. Qed.

Lemma bal_read_array : forall p l r, bal p false (read_array l r).
Proof. intros p l r. unfold read_array. leaf p. Qed.

(** ** Saves and loads *)

Lemma bal_assoc : forall p q A B C (m : M A) (k : A -> M B) (j : B -> M C),
  bal p q (bind (bind m k) j) -> bal p q (bind m (fun a => bind (k a) j)).
Proof.
  intros p q A B C m k j H o w S R. specialize (H o w S). unfold bind in *.
  destruct (m o w) as [[a|] w1]; apply H; exact R.
Qed.

Lemma taker_or : forall t t', taker t -> taker t' ->
  taker (h <- t ;; match h with Some _ => ret h | None => t' end).
Proof.
  intros t t' T T' o w S. destruct (T o w S) as (w0 & C & K & E). unfold bind.
  destruct (t o w) as [r w1]. cbn [fst snd] in C. destruct C as [[-> ->]|(k & -> & ->)].
  - destruct (T' o w0 (keeps_sound _ _ _ (K any_kind))) as (w2 & C2 & K2 & E2).
    exists w2. split; [exact C2|]. split; [|congruence]. intros p. eapply keeps_trans; [apply K|apply K2].
  - exists w0. split; [right; exists k; split; reflexivity|]. split; [exact K|exact E].
Qed.

Lemma bal_ext : forall p q A (m m' : M A), (forall o w, m o w = m' o w) -> bal p q m -> bal p q m'.
Proof. intros p q A m m' E H o w S R. rewrite <- E in *. apply H; assumption. Qed.

Lemma give_ret : forall h o w, (give h ;; ret tt) o w = give h o w.
Proof. intros [i|] o w; unfold bind, give, ret; [destruct (is_open i w)|]; reflexivity. Qed.

Lemma bal_raw_group : forall p q l body,
  (forall l', bal p q (body l')) -> (q = true -> forall l', never_throws (body l')) ->
  bal p q (raw_group l body).
Proof.
  intros p q l body B NT.
  apply (bal_ext p q unit (h <- take_in l ;; body (at_ l h) ;; give h ;; ret tt)).
  - intros o w. unfold raw_group. unfold bind at 1 2 4 5. destruct (take_in l o w) as [[h|] w1]; [|reflexivity].
    destruct (body (at_ l h) o w1) as [[[]|] w2]; [|reflexivity]. apply give_ret.
  - apply (bal_raw p q unit unit (take_in l) (fun h => body (at_ l h)) (fun _ => ret tt));
      auto using taker_in, bal_ret.
Qed.

(** Programs put together. *)
Ltac b1 :=
  lazymatch goal with
  | |- bal _ _ (ret _) => apply bal_ret
  | |- bal _ _ throw => apply bal_throw
  | |- bal _ _ ask => apply bal_ask
  | |- bal _ _ must => apply bal_must
  | |- bal _ _ (add_attribute _) => apply bal_add_attribute
  | |- bal _ _ (add_string_attribute _) => apply bal_add_string; assumption
  | |- bal _ _ (read_attribute _) => apply bal_read_attribute
  | |- bal _ _ (read_plain _) => apply bal_read_plain
  | |- bal _ _ (write_array _ _) => apply bal_write_array
  | |- bal _ _ (read_array _ _) => apply bal_read_array
  | |- bal _ _ (times _ _) => apply bal_times
  | |- bal _ _ (handle_in _ _) => apply bal_handle_in; intros
  | |- bal _ _ (handle_mem _) => apply bal_handle_mem
  | |- bal _ _ (bind _ _) => apply bal_bind; [|intros]
  | |- bal _ _ (if _ then _ else _) => match goal with |- bal _ _ (if ?c then _ else _) => destruct c end
  end.
Ltac b := repeat (b1; cbv beta).

Lemma bal_read_flavor : forall p l, bal p false (read_flavor l).
Proof. intros. unfold read_flavor. b. Qed.

Lemma bal_read_hdf : forall p f, bal p false (read_hdf f).
Proof.
  intros. unfold read_hdf. apply bal_closing; [apply taker_take|]. intros h. cbv zeta.
  b; apply bal_read_flavor.
Qed.

Lemma bal_initialize_none : forall p q, bal p q (initialize []).
Proof. intros. apply bal_must. Qed.

Lemma bal_initialize : forall p fs, bal p false (initialize fs).
Proof.
  intros p fs. induction fs as [|f fs IH]; cbn [initialize]; [apply bal_must|].
  apply bal_bind; [apply bal_read_hdf|intros _; exact IH].
Qed.

Lemma bal_write_flavor : forall p q l c, bal p q (write_flavor l c).
Proof. intros. unfold write_flavor. b. Qed.

Lemma bal_make_alias : forall p q, bal p q make_alias.
Proof. intros. unfold make_alias. b. Qed.

Lemma bal_write_hdf : forall p q f c s, bal p q (write_hdf f c s).
Proof.
  intros. unfold write_hdf. apply bal_closing; [apply taker_create|]. intros h. cbv zeta.
  b; try apply bal_write_flavor; apply bal_make_alias.
Qed.

Lemma bal_read_hdf_v1 : forall p f, bal p false (read_hdf_v1 f).
Proof. intros. unfold read_hdf_v1. apply bal_closing; [apply taker_take|]. intros h. cbv zeta. b. Qed.

Lemma bal_write_hdf_v1 : forall p q f, bal p q (write_hdf_v1 f).
Proof. intros. unfold write_hdf_v1. apply bal_closing; [apply taker_create|]. intros h. cbv zeta. b. Qed.

Lemma bal_own_body : forall p q b l, ~ p Free -> own_body b -> bal p q (serialize_body b l).
Proof. intros p q [] l N H; cbn in H; try contradiction; unfold serialize_body; b. Qed.

Lemma bal_own_track : forall p q t l, ~ p Free -> own_track t -> bal p q (serialize_track t l).
Proof. intros p q [] l N H; cbn in H; try contradiction; unfold serialize_track; b. Qed.

Lemma bal_read_if_there : forall p q l, bal p q (read_if_there l).
Proof. intros. unfold read_if_there. b. Qed.

Lemma bal_des_body : forall p b l, own_body b -> bal p false (deserialize_body b l).
Proof.
  intros p [] l H; cbn in H; try contradiction; unfold deserialize_body; b; apply bal_read_if_there.
Qed.

Lemma bal_des_track : forall p t l, own_track t -> bal p false (deserialize_track t l).
Proof.
  intros p [] l H; cbn in H; try contradiction; unfold deserialize_track; b; apply bal_read_if_there.
Qed.

Lemma bal_write_targets : forall p q x, ~ p Free -> bal p q (write_targets x).
Proof. intros. unfold write_targets. b. Qed.
Lemma bal_write_three : forall p q x c, ~ p Free -> bal p q (write_three x c).
Proof. intros. unfold write_three. b. Qed.
Lemma bal_write_tau : forall p q x c, ~ p Free -> bal p q (write_tau x c).
Proof. intros. unfold write_tau. b. Qed.
Lemma bal_write_plain : forall p q n, bal p q (write_plain n).
Proof. intros. unfold write_plain. b. Qed.

Definition may_init (q : bool) (s : save) : Prop := q = true -> no_reading s.

Lemma bal_write_rest : forall p q s root group, ~ p Free -> may_init q s ->
  (forall l, bal p q (s_hook s l)) -> bal p q (write_rest s root group).
Proof.
  intros p q s root group N I H. unfold write_rest.
  assert (B : forall xh, bal p q (let x := at_ group xh in
    (if s_tables s
     then match s_fresh s with Some files => initialize files | None => ret tt end ;;
       write_targets x ;; write_three x (s_pad_total s) ;; write_three x (s_pad_diff s) ;;
       write_tau x (s_pad_tau s)
     else ret tt) ;; handle_in group (s_hook s))).
  { intros xh. cbv zeta. b;
      lazymatch goal with
      | |- bal _ _ (write_targets _) => apply bal_write_targets; exact N
      | |- bal _ _ (write_three _ _) => apply bal_write_three; exact N
      | |- bal _ _ (write_tau _ _) => apply bal_write_tau; exact N
      | |- bal _ _ (s_hook _ _) => apply H
      | |- _ => idtac
      end.
    destruct q.
    - destruct (I eq_refl) as [E|E]; rewrite E; [apply bal_ret|apply bal_must].
    - destruct (s_fresh s); [apply bal_initialize|apply bal_ret]. }
  destruct (s_shared s); apply bal_handle; auto using taker_in, taker_ask.
Qed.

Lemma bal_write_state : forall p q s, ~ p Free -> may_init q s ->
  (forall l, bal p q (s_hook s l)) ->
  (forall l, bal p q (serialize_body (s_body s) l)) ->
  (q = true -> forall l, never_throws (serialize_body (s_body s) l)) ->
  (forall l, bal p q (serialize_track (s_track s) l)) ->
  (q = true -> forall l, never_throws (serialize_track (s_track s) l)) ->
  bal p q (write_state s).
Proof.
  intros p q s N I H Bb Nb Bt Nt. unfold write_state. destruct (negb (s_complete s)); [apply bal_throw|].
  apply bal_assoc.
  assert (G : forall root group, bal p q (write_group s root group)).
  { intros root group. unfold write_group. apply bal_bind; [apply bal_write_plain|intros _].
    apply bal_bind; [apply bal_raw_group; assumption|intros _].
    apply bal_bind; [apply bal_raw_group; assumption|intros _]. apply bal_write_rest; assumption. }
  apply (bal_handle p q unit _ (fun _ => handle_in (Some (s_file s)) (fun root =>
             if s_root s then write_group s root root
             else handle_in root (fun group => write_group s root group)))).
  - apply taker_or; [destruct (s_over s); [apply taker_create|apply taker_take]|apply taker_create].
  - intros _. b; apply G.
Qed.

Lemma goes_create : forall p w o B f (k : hid -> M B) hs w' Q,
  owns p w hs w' ->
  (forall w'', owns p w hs w'' -> goes (k None) o w'' Q) ->
  (forall i w'', owns p w (i :: hs) w'' -> goes (k (Some i)) o w'' Q) -> goes (bind (h5f_create f) k) o w' Q.
Proof.
  intros p w o B f k hs w' Q O H0 H1. unfold goes, bind at 1 2, h5f_create.
  destruct (existsb _ _).
  - apply H0. exact O.
  - exact (goes_take p w o B (File f) k hs w' Q O H0 H1).
Qed.

Lemma bal_write_atm : forall p q f ready over nodes,
  (forall s, In s nodes -> bal p q (write_state s)) -> bal p q (write_atm f ready over nodes).
Proof.
  intros p q f ready over nodes H. unfold write_atm. destruct (negb ready); [apply bal_throw|].
  apply bal_goes. intros o w Sw. pose proof (owns_start p _ Sw).
  destruct over; [|do 2 go1; cbv beta; repeat (go1; cbv beta iota); done].
  eapply goes_create; [eassumption| |]; clear_owns; intros; [repeat go1; done|].
  repeat (go1; cbv beta iota); (apply goes_bal; [assumption|]); apply bal_each; exact H.
Qed.

Section Loads.
Variables (p : what -> Prop) (q : bool) (j : load).
Hypothesis Bb : forall b l, In b (l_bodies j) -> bal p q (deserialize_body b l).
Hypothesis Bt : forall t l, In t (l_tracks j) -> bal p q (deserialize_track t l).
Hypothesis Bh : forall l, bal p q (l_hook j l).
Hypothesis Nh : q = true -> forall l, never_throws (l_hook j l).

Lemma bal_string_attribute : bal p q string_attribute.
Proof. unfold string_attribute. b. Qed.

Lemma bal_read_media : forall c l, bal p q (read_media j c l).
Proof.
  assert (F : forall n l, bal p q (match nth_error (l_bodies j) n with Some x => deserialize_body x l | None => throw end)).
  { intros n l. destruct (nth_error (l_bodies j) n) eqn:E; [|apply bal_throw]. apply Bb. eapply nth_error_In; eassumption. }
  assert (T : forall n l, bal p q (match nth_error (l_tracks j) n with Some x => deserialize_track x l | None => throw end)).
  { intros n l. destruct (nth_error (l_tracks j) n) eqn:E; [|apply bal_throw]. apply Bt. eapply nth_error_In; eassumption. }
  intros c l. unfold read_media. cbv zeta. destruct c; b; try apply bal_string_attribute; auto.
Qed.

Lemma bal_read_plain_state : forall c l, bal p q (read_plain_state j c l).
Proof. intros. unfold read_plain_state. b. apply bal_read_media. Qed.

Lemma bal_read_three : forall x, bal p q (read_three x).
Proof. intros. unfold read_three. b. Qed.
Lemma bal_read_tau : forall x, bal p q (read_tau x).
Proof. intros. unfold read_tau. b. Qed.
Lemma bal_read_tables : forall root group, bal p q (read_tables j root group).
Proof. intros. unfold read_tables. b; try apply bal_read_three; apply bal_read_tau. Qed.

Lemma bal_read_state : bal p q (read_state j).
Proof.
  apply (bal_handle p q unit (h5f_open (l_file j)) (fun _ =>
    handle_in (Some (l_file j)) (fun root =>
         handle_in root (fun group =>
           inter <- ask ;;
           read_plain_state j false group ;;
           (if inter =? 0 then ret tt else read_tables j root group) ;;
           raw_group group (l_hook j))))); [apply taker_take|].
  intros _. b;
    lazymatch goal with
    | |- bal _ _ (read_plain_state _ _ _) => apply bal_read_plain_state
    | |- bal _ _ (read_tables _ _ _) => apply bal_read_tables
    | |- bal _ _ (raw_group _ _) => apply bal_raw_group; assumption
    end.
Qed.

Lemma bal_read_internal : forall given, bal p q (read_state_internal j given).
Proof.
  intros given.
  apply (bal_handle p q unit (h5f_open (l_file j)) (fun _ =>
    handle_in (Some (l_file j)) (fun root =>
         handle_in root (fun group =>
           inter <- ask ;;
           read_plain_state j true group ;;
           (if inter =? 0 then ret tt else if given then ret tt else throw) ;;
           raw_group group (l_hook j))))); [apply taker_take|].
  intros _. b;
    lazymatch goal with
    | |- bal _ _ (read_plain_state _ _ _) => apply bal_read_plain_state
    | |- bal _ _ (raw_group _ _) => apply bal_raw_group; assumption
    end.
Qed.
End Loads.

Lemma bal_read_atm : forall p q f first given others,
  bal p q (read_state first) -> (forall j, In j others -> bal p q (read_state_internal j given)) ->
  bal p q (read_atm f first given others).
Proof.
  intros p q f first given others H1 H2.
  apply (bal_handle p q unit (h5f_open f) (fun _ =>
    (r <- take_in (Some f) ;;
         times 4 (ask ;; ret tt) ;;
         give r ;;
         read_state first ;;
         each others (fun j => read_state_internal j given)))); [apply taker_take|].
  intros _.
  apply (bal_raw p q unit unit (take_in (Some f)) (fun _ => times 4 (ask ;; ret tt))
    (fun _ => read_state first ;; each others (fun j => read_state_internal j given))).
  - apply taker_in.
  - intros. b.
  - intros. nt.
  - intros. apply bal_bind; [exact H1|intros _; apply bal_each; exact H2].
Qed.

(** ** From the invariant to the statements *)

Lemma bal_always : forall p A (m : M A), bal p true m <-> always_tidy p m.
Proof.
  intros p A m. split; intros H o w S; [apply H; [exact S|discriminate]|intros _; apply H, S].
Qed.
Lemma bal_on_return : forall p A (m : M A), bal p false m <-> tidy_on_return p m.
Proof.
  intros p A m. split; intros H o w S R; apply H; auto.
Qed.

Lemma not_free : ~ of_files Free.
Proof. intros H. apply H. reflexivity. Qed.

Lemma good_body_ser : forall q b l, good_body b -> bal of_files q (serialize_body b l).
Proof.
  intros q b l G. destruct b eqn:E; try (apply bal_own_body; [exact not_free|exact I]).
  cbn in *. destruct G as (G & _).
  destruct q; [apply bal_always, G|apply bal_weaken, bal_always, G].
Qed.
Lemma good_body_nt : forall b l, good_body b -> never_throws (serialize_body b l).
Proof.
  intros b l G. destruct b eqn:E; try (apply nt_own_body; exact I). cbn in *. apply G.
Qed.
Lemma good_track_ser : forall q t l, good_track t -> bal of_files q (serialize_track t l).
Proof.
  intros q t l G. destruct t eqn:E; try (apply bal_own_track; [exact not_free|exact I]).
  cbn in *. destruct G as (G & _).
  destruct q; [apply bal_always, G|apply bal_weaken, bal_always, G].
Qed.
Lemma good_track_nt : forall t l, good_track t -> never_throws (serialize_track t l).
Proof.
  intros t l G. destruct t eqn:E; try (apply nt_own_track; exact I). cbn in *. apply G.
Qed.
Lemma good_body_des : forall b l, good_body b -> bal of_files false (deserialize_body b l).
Proof.
  intros b l G. destruct b eqn:E; try (apply bal_des_body; exact I). cbn in *. apply bal_on_return, G.
Qed.
Lemma good_track_des : forall t l, good_track t -> bal of_files false (deserialize_track t l).
Proof.
  intros t l G. destruct t eqn:E; try (apply bal_des_track; exact I). cbn in *. apply bal_on_return, G.
Qed.

Lemma save_bal : forall q s, good_save s -> may_init q s -> bal of_files q (write_state s).
Proof.
  intros q s (Gb & Gt & Gh) I. apply bal_write_state; auto using not_free, good_body_ser, good_body_nt, good_track_ser, good_track_nt.
  intros l. destruct q; [apply bal_always, Gh|apply bal_weaken, bal_always, Gh].
Qed.

Lemma load_bal : forall j, good_load j ->
  bal of_files false (read_state j) /\ forall g, bal of_files false (read_state_internal j g).
Proof.
  intros j (Gb & Gt & Gh). split; [|intros g]; [apply bal_read_state|apply bal_read_internal];
    auto using good_body_des, good_track_des; try discriminate; intros; apply bal_on_return, Gh.
Qed.

Lemma strict_bal : forall j, strict_load j ->
  bal of_files true (read_state j) /\ forall g, bal of_files true (read_state_internal j g).
Proof.
  intros j (Gb & Gt & Gh & Gn). split; [|intros g]; [apply bal_read_state|apply bal_read_internal];
    auto; intros; apply bal_always; auto.
Qed.

Lemma step_bal : forall s, good_step s -> bal of_files false (do_step s).
Proof.
  intros s G. destruct s; cbn [do_step good_step] in *.
  - apply bal_attempt, save_bal; [apply G|intros _; apply G].
  - exact (proj1 (load_bal j G)).
  - apply bal_attempt, bal_write_atm. intros s Hs. apply save_bal; [apply G, Hs|intros _; apply G, Hs].
  - destruct G as [G1 G2]. apply bal_read_atm; [exact (proj1 (load_bal _ G1))|]. intros j Hj. exact (proj2 (load_bal _ (G2 j Hj)) given).
  - apply bal_read_hdf.
  - apply bal_attempt, bal_write_hdf.
  - apply bal_read_hdf_v1.
  - apply bal_attempt, bal_write_hdf_v1.
Qed.

Lemma session_bal : forall ss, (forall s, In s ss -> good_step s) -> bal of_files false (each ss do_step).
Proof. intros ss G. apply bal_each. intros s Hs. apply step_bal, G, Hs. Qed.

Lemma tidy_held : forall f w w', tidy of_files w w' -> (held f w' <-> held f w).
Proof.
  intros f w w' (H1 & H2 & _). split; intros [i [H|H]]; exists i.
  - destruct (H2 _ _ H) as [?|[_ N]]; [left; assumption|exfalso; apply N; discriminate].
  - destruct (H2 _ _ H) as [?|[_ N]]; [right; assumption|exfalso; apply N; discriminate].
  - left; apply H1, H.
  - right; apply H1, H.
Qed.

(** ** What a successful save leaves *)

(** With a library which never fails, [m] returns and leaves exactly [n] new identifiers, all of
    memory. *)
Definition adds (n : nat) {A} (m : M A) : Prop :=
  forall o w, healthy o -> sound w -> exists a x w', m o w = (Ret a, w') /\
    w_open w' = x ++ w_open w /\ length x = n /\
    (forall i k, In (i, k) x -> w_next w <= i < w_next w' /\ k = Free) /\
    w_wrong w' = w_wrong w /\ w_next w <= w_next w' /\ sound w'.

Lemma adds_same : forall n A (m : M A), (forall o w, healthy o -> sound w -> exists a w', m o w = (Ret a, w') /\
  w_open w' = w_open w /\ w_wrong w' = w_wrong w /\ w_next w <= w_next w') -> n = 0 -> adds n m.
Proof.
  intros n A m H -> o w Ho S. destruct (H o w Ho S) as (a & w' & E & E1 & E2 & L).
  exists a, [], w'. repeat split; auto; try contradiction.
  intros i k Hi. rewrite E1 in Hi. apply S in Hi. lia.
Qed.

Lemma adds_ret : forall A (a : A), adds 0 (ret a).
Proof. intros. apply adds_same; [|reflexivity]. intros o w _ _. exists a, w. auto. Qed.
Lemma adds_ask : adds 0 ask.
Proof. apply adds_same; [|reflexivity]. intros o w _ _. eexists _, _. split; [reflexivity|]. cbn. auto. Qed.
Lemma adds_must : adds 0 must.
Proof.
  apply adds_same; [|reflexivity]. intros o w Ho _. unfold must, bind, ask.
  destruct (Nat.eqb_spec (o (w_asked w)) 0) as [E|E]; [apply Ho in E; contradiction|].
  eexists _, _. split; [reflexivity|]. cbn. auto.
Qed.
Lemma adds_bind : forall n1 n2 n A B (m : M A) (k : A -> M B),
  adds n1 m -> (forall a, adds n2 (k a)) -> n = n1 + n2 -> adds n (bind m k).
Proof.
  intros n1 n2 n A B m k Hm Hk -> o w Ho S.
  destruct (Hm o w Ho S) as (a & x & w1 & E & X & Lx & Fx & Wx & Nx & Sx).
  destruct (Hk a o w1 Ho Sx) as (b & y & w2 & E' & Y & Ly & Fy & Wy & Ny & Sy).
  exists b, (y ++ x), w2. unfold bind. rewrite E. split; [exact E'|].
  split; [rewrite Y, X, app_assoc; reflexivity|]. split; [rewrite app_length; lia|].
  split; [|split; [congruence|split; [lia|exact Sy]]].
  intros i k' Hi. apply in_app_or in Hi. destruct Hi as [Hi|Hi]; [destruct (Fy i k' Hi)|destruct (Fx i k' Hi)]; split; auto; lia.
Qed.
Lemma adds_times : forall n k m, adds k m -> adds (n * k) (times n m).
Proof.
  intros n k m H. induction n; cbn [times]; [apply adds_ret|].
  eapply adds_bind; [exact H|intros _; exact IHn|]. reflexivity.
Qed.

Lemma filter_all : forall A (f : A -> bool) l, (forall a, In a l -> f a = true) -> filter f l = l.
Proof.
  intros A f l. induction l as [|a l IH]; intros H; [reflexivity|]. cbn [filter].
  rewrite (H a (or_introl eq_refl)), IH; [reflexivity|]. intros b Hb. apply H. right; exact Hb.
Qed.

(** Always gives an identifier, with a library which never fails. *)
Definition gets (t : M hid) : Prop := forall o w, healthy o -> sound w ->
  exists k w0, t o w = (Ret (Some (w_next w0)), pushed k w0) /\
    w_open w0 = w_open w /\ w_next w0 = w_next w /\ w_wrong w0 = w_wrong w.

Lemma gets_take : forall k, gets (take k).
Proof.
  intros k o w Ho S. unfold take, bind, ask.
  destruct (Nat.eqb_spec (o (w_asked w)) 0) as [E|E]; [apply Ho in E; contradiction|].
  exists k, (World (w_open w) (w_next w) (Datatypes.S (w_asked w)) (w_wrong w)). auto.
Qed.
Lemma gets_ask : forall t, gets t -> gets (ask ;; t).
Proof.
  intros t H o w Ho S. unfold bind at 1, ask at 1.
  exact (H o (World (w_open w) (w_next w) (Datatypes.S (w_asked w)) (w_wrong w)) Ho S).
Qed.

Lemma give_new : forall o w0 w1 x k, sound w0 ->
  w_open w1 = x ++ (w_next w0, k) :: w_open w0 ->
  (forall i k', In (i, k') x -> S (w_next w0) <= i) ->
  give (Some (w_next w0)) o w1 = (Ret tt, World (x ++ w_open w0) (w_next w1) (w_asked w1) (w_wrong w1)).
Proof.
  intros o w0 w1 x k S0 E F. unfold give. rewrite (is_open_in (w_next w0) k).
  2:{ rewrite E. apply in_or_app. right; left; reflexivity. }
  rewrite E, filter_app. cbn [filter fst]. rewrite Nat.eqb_refl. cbn [negb].
  rewrite !filter_all; [reflexivity| |].
  - intros (i & k') Hi. apply S0 in Hi. cbn [fst]. apply negb_true_iff, Nat.eqb_neq. lia.
  - intros (i & k') Hi. apply F in Hi. cbn [fst]. apply negb_true_iff, Nat.eqb_neq. lia.
Qed.

Lemma adds_raw : forall n1 n2 n A B (t : M hid) (body : hid -> M A) (k : A -> M B),
  gets t -> (forall i, adds n1 (body (Some i))) -> (forall a, adds n2 (k a)) -> n = n1 + n2 ->
  adds n (bind t (fun h => bind (body h) (fun a => bind (give h) (fun _ => k a)))).
Proof.
  intros n1 n2 n A B t body k T Hb Hk -> o w Ho S.
  destruct (T o w Ho S) as (kd & w0 & E0 & O0 & N0 & W0).
  assert (S0 : sound w0) by (intros i k' Hi; rewrite O0 in Hi; rewrite N0; eapply S; eassumption).
  destruct (Hb (w_next w0) o (pushed kd w0) Ho (pushed_sound kd w0 S0)) as (a & x & w1 & E1 & X & Lx & Fx & Wx & Nx & Sx).
  cbn [pushed w_open w_next w_wrong] in X, Fx, Wx, Nx.
  pose proof (give_new o w0 w1 x kd S0 X (fun i k' Hi => proj1 (proj1 (Fx i k' Hi)))) as G.
  set (w2 := World (x ++ w_open w0) (w_next w1) (w_asked w1) (w_wrong w1)) in *.
  assert (S2 : sound w2).
  { intros i k' Hi. cbn [w2 w_open w_next] in *. apply (Sx i k'). rewrite X. apply in_app_or in Hi. apply in_or_app.
    destruct Hi; [left|right; right]; assumption. }
  destruct (Hk a o w2 Ho S2) as (b & y & w3 & E3 & Y & Ly & Fy & Wy & Ny & Sy).
  exists b, (y ++ x), w3. unfold bind. rewrite E0, E1, G. split; [exact E3|].
  cbn [w2 w_open w_next w_wrong] in *.
  split; [rewrite Y, O0, app_assoc; reflexivity|]. split; [rewrite app_length; lia|].
  split; [|split; [congruence|split; [lia|exact Sy]]].
  intros i k' Hi. apply in_app_or in Hi. destruct Hi as [Hi|Hi]; [destruct (Fy i k' Hi)|destruct (Fx i k' Hi)]; split; auto; lia.
Qed.

Lemma adds_ext : forall n A (m m' : M A), (forall o w, m o w = m' o w) -> adds n m -> adds n m'.
Proof. intros n A m m' E H o w Ho S. rewrite <- E. apply H; assumption. Qed.

Lemma adds_handle : forall n A (t : M hid) (body : hid -> M A),
  gets t -> (forall i, adds n (body (Some i))) -> adds n (handle t body).
Proof.
  intros n A t body T Hb o w Ho S.
  destruct (adds_raw n 0 n A A t body ret T Hb (adds_ret A) ltac:(lia) o w Ho S) as (a & x & w' & E & R).
  exists a, x, w'. split; [|exact R]. rewrite <- E. clear E R. unfold handle, bind, finally.
  destruct (T o w Ho S) as (kd & w0 & E0 & O0 & N0 & W0). rewrite E0.
  assert (S0 : sound w0) by (intros i k' Hi; rewrite O0 in Hi; rewrite N0; eapply S; eassumption).
  destruct (Hb (w_next w0) o (pushed kd w0) Ho (pushed_sound kd w0 S0)) as (b & y & w1 & E1 & _). rewrite E1.
  destruct (nt_give (Some (w_next w0)) o w1) as [[] G]. destruct (give _ o w1) as [r w2]. cbn in G. subst r. reflexivity.
Qed.

Lemma adds_raw_group : forall n f body, (forall i, adds n (body (at_ (Some f) (Some i)))) -> adds n (raw_group (Some f) body).
Proof.
  intros n f body H.
  apply (adds_ext n unit (h <- take_in (Some f) ;; body (at_ (Some f) h) ;; give h ;; ret tt)).
  - intros o w. unfold raw_group. unfold bind at 1 2 4 5. destruct (take_in (Some f) o w) as [[h|] w1]; [|reflexivity].
    destruct (body (at_ (Some f) h) o w1) as [[[]|] w2]; [|reflexivity]. apply give_ret.
  - apply (adds_raw n 0 n unit unit (take_in (Some f)) (fun h => body (at_ (Some f) h)) (fun _ => ret tt));
      [apply gets_take|exact H|intros; apply adds_ret|lia].
Qed.

Lemma adds_add_attribute : forall f, adds 0 (add_attribute (Some f)).
Proof.
  intros f.
  apply (adds_ext 0 unit (s <- take Free ;; (a <- take_in (Some f) ;; ask ;; give a ;; ret tt) ;; give s ;; ret tt)).
  - intros o w. unfold add_attribute. unfold bind at 1 7.
    destruct (take Free o w) as [[s|] w1]; [|reflexivity].
    unfold bind. destruct (take_in (Some f) o w1) as [[a|] w2]; [|reflexivity]. cbn [ask].
    destruct (nt_give a o (World (w_open w2) (w_next w2) (S (w_asked w2)) (w_wrong w2))) as [[] G].
    destruct (give a o _) as [r w3]. cbn in G. subst r. cbn [ret].
    destruct (nt_give s o w3) as [[] G2]. destruct (give s o w3) as [r w4]. cbn in G2. subst r. reflexivity.
  - apply (adds_raw 0 0 0 unit unit (take Free) (fun _ => a <- take_in (Some f) ;; ask ;; give a ;; ret tt) (fun _ => ret tt));
      auto using gets_take, adds_ret. intros _.
    apply (adds_raw 0 0 0 nat unit (take_in (Some f)) (fun _ => ask) (fun _ => ret tt)); auto using adds_ask, adds_ret.
    apply gets_take.
Qed.

Lemma adds_take_free : adds 1 (take Free).
Proof.
  intros o w Ho S. unfold take, bind, ask.
  destruct (Nat.eqb_spec (o (w_asked w)) 0) as [E|E]; [apply Ho in E; contradiction|]. cbn [push w_open w_next w_wrong w_asked].
  eexists _, [(w_next w, Free)], _. split; [reflexivity|].
  cbn [w_open w_next w_wrong app]. split; [reflexivity|]. split; [reflexivity|].
  split; [intros i k [F|[]]; injection F as <- <-; split; [lia|reflexivity]|].
  split; [reflexivity|]. split; [lia|]. exact (pushed_sound Free w S).
Qed.

Lemma adds_add_string : forall f, adds 1 (add_string_attribute (Some f)).
Proof.
  intros f. unfold add_string_attribute.
  apply (adds_bind 1 0 1 _ _ _ _ adds_take_free); [|reflexivity]. intros _.
  apply (adds_bind 0 0 0 _ _ _ _ adds_ask); [|reflexivity]. intros _. exact (adds_add_attribute f).
Qed.

Lemma adds_body : forall b f, own_body b -> adds 1 (serialize_body b (Some f)).
Proof.
  intros b f H. destruct b; cbn in H; try contradiction; unfold serialize_body;
    try exact (adds_add_string f);
    (apply (adds_bind 1 0 1 _ _ _ _ (adds_add_string f)); [|reflexivity]); intros _;
    try exact (adds_times 2 0 _ (adds_add_attribute f));
    (apply (adds_bind 0 0 0 _ _ _ _ (adds_add_attribute f)); [|reflexivity]); intros _;
    do 3 ((apply (adds_bind 0 0 0 _ _ _ _ adds_ask); [|reflexivity]); intros _);
    try apply adds_ret; exact (adds_times 2 0 _ (adds_add_attribute f)).
Qed.
Lemma adds_track : forall t f, own_track t -> adds 1 (serialize_track t (Some f)).
Proof.
  intros t f H. destruct t; cbn in H; try contradiction; unfold serialize_track;
    (apply (adds_bind 1 0 1 _ _ _ _ (adds_add_string f)); [|reflexivity]); intros _.
  - exact (adds_times 3 0 _ (adds_add_attribute f)).
  - exact (adds_times 4 0 _ (adds_add_attribute f)).
  - exact (adds_times 6 0 _ (adds_add_attribute f)).
Qed.

Lemma adds_handle_in : forall n A f (body : loc -> M A), adds n (body (Some f)) -> adds n (handle_in (Some f) body).
Proof. intros n A f body H. apply adds_handle; [apply gets_take|]. intros i. exact H. Qed.
Lemma adds_handle_mem : forall n A (body : M A), adds n body -> adds n (handle_mem body).
Proof. intros n A body H. apply adds_handle; [apply gets_take|]. intros i. exact H. Qed.

Lemma adds_musts : forall n, adds 0 (times n must).
Proof. intros n. replace 0 with (n * 0) by lia. apply adds_times, adds_must. Qed.
Lemma adds_asks : forall n, adds 0 (times n (ask ;; ret tt)).
Proof.
  intros n. replace 0 with (n * 0) by lia. apply adds_times.
  apply (adds_bind 0 0 0 _ _ _ _ adds_ask); [intros; apply adds_ret|reflexivity].
Qed.

Lemma adds_targets : forall f, adds 1 (write_targets (Some f)).
Proof.
  intros f. apply adds_handle_mem, adds_handle_in.
  apply (adds_bind 0 1 1 _ _ _ _ adds_must); [intros; apply adds_add_string|reflexivity].
Qed.
Lemma adds_three : forall f c, adds 3 (write_three (Some f) c).
Proof.
  intros f c. unfold write_three. apply adds_handle_mem, adds_handle_in, adds_handle_in, adds_handle_mem, adds_handle_in.
  apply (adds_bind 0 3 3); [|intros _|reflexivity].
  - destruct c; [|apply adds_musts]. apply adds_handle_mem, adds_handle_mem.
    apply (adds_bind 0 0 0 _ _ _ _ (adds_musts 4)); [intros; apply adds_musts|reflexivity].
  - apply (adds_bind 1 2 3 _ _ _ _ (adds_add_string f)); [intros _|reflexivity].
    apply (adds_bind 1 1 2 _ _ _ _ (adds_add_string f)); [intros _; apply adds_add_string|reflexivity].
Qed.
Lemma adds_tau : forall f c, adds 2 (write_tau (Some f) c).
Proof.
  intros f c. unfold write_tau. apply adds_handle_mem, adds_handle_in, adds_handle_in.
  apply (adds_bind 0 2 2); [|intros _|reflexivity].
  - destruct c; [|apply adds_musts]. apply adds_handle_mem.
    apply (adds_bind 0 0 0 _ _ _ _ (adds_musts 2)); [intros; apply adds_musts|reflexivity].
  - apply (adds_bind 1 1 2 _ _ _ _ (adds_add_string f)); [intros _; apply adds_add_string|reflexivity].
Qed.

Lemma adds_rest : forall s f, plain_save s ->
  adds (if s_tables s then 9 else 0) (write_rest s (Some f) (Some f)).
Proof.
  intros s f (_ & _ & _ & I & H). unfold write_rest.
  assert (B : forall i, adds (if s_tables s then 9 else 0) ((fun xh => let x := at_ (Some f) xh in
    (if s_tables s
     then match s_fresh s with Some files => initialize files | None => ret tt end ;;
       write_targets x ;; write_three x (s_pad_total s) ;; write_three x (s_pad_diff s) ;;
       write_tau x (s_pad_tau s)
     else ret tt) ;; handle_in (Some f) (s_hook s)) (Some i))).
  { intros i. cbv beta zeta. cbn [at_]. rewrite I.
    apply (adds_bind (if s_tables s then 9 else 0) 0); [|intros _; apply adds_handle_in; rewrite H; apply adds_ret|lia].
    destruct (s_tables s); [|apply adds_ret].
    apply (adds_bind 0 9 9 _ _ _ _ (adds_ret unit tt)); [intros _|reflexivity].
    apply (adds_bind 1 8 9 _ _ _ _ (adds_targets f)); [intros _|reflexivity].
    apply (adds_bind 3 5 8 _ _ _ _ (adds_three f _)); [intros _|reflexivity].
    apply (adds_bind 3 2 5 _ _ _ _ (adds_three f _)); [intros _; apply adds_tau|reflexivity]. }
  destruct (s_shared s); apply adds_handle; try exact B; try apply gets_ask; apply gets_take.
Qed.

Lemma adds_group : forall s f, plain_save s -> adds (left_by s) (write_group s (Some f) (Some f)).
Proof.
  intros s f H. unfold write_group.
  apply (adds_bind 0 (left_by s)); [|intros _|reflexivity].
  - unfold write_plain.
    apply (adds_bind 0 0 0 _ _ _ _ (adds_asks _)); [intros _|reflexivity].
    apply (adds_bind 0 0 0 _ _ _ _ (adds_asks _)); [intros _|reflexivity].
    apply (adds_bind 0 0 0 _ _ _ _ (adds_asks _)); [intros _; apply adds_asks|reflexivity].
  - apply (adds_bind 1 (1 + (if s_tables s then 9 else 0))).
    + apply adds_raw_group. intros i. apply adds_track, H.
    + intros _. apply (adds_bind 1 (if s_tables s then 9 else 0)); [|intros _; apply adds_rest, H|reflexivity].
      apply adds_raw_group. intros i. apply adds_body, H.
    + unfold left_by. destruct (s_tables s); reflexivity.
Qed.

Lemma unheld : forall f w, ~ held f w -> existsb (fun e => in_file f (snd e)) (w_open w) = false.
Proof.
  intros f w H. destruct (existsb _ _) eqn:E; [|reflexivity]. exfalso. apply H.
  apply existsb_exists in E. destruct E as ((i & k) & Hi & Hk). exists i. destruct k; cbn in Hk; try discriminate;
    apply Nat.eqb_eq in Hk; subst; auto.
Qed.

(** A successful save leaves exactly so many datatypes open. *)
Lemma save_leaves : forall s o w, healthy o -> sound w -> ~ held (s_file s) w -> plain_save s ->
  exists x w', write_state s o w = (Ret tt, w') /\ w_open w' = x ++ w_open w /\ length x = left_by s /\
    (forall i k, In (i, k) x -> k = Free) /\ w_wrong w' = w_wrong w /\ sound w'.
Proof.
  intros s o w Ho S H P.
  assert (T : forall t, (t = h5f_create (s_file s) \/ t = h5f_open (s_file s)) -> t o w = take (File (s_file s)) o w).
  { intros t [-> | ->]; [|reflexivity]. unfold h5f_create. rewrite (unheld _ _ H). reflexivity. }
  pose (body := fun _ : hid => handle_in (Some (s_file s)) (fun root =>
             if s_root s then write_group s root root
             else handle_in root (fun group => write_group s root group))).
  assert (B : adds (left_by s) (handle (take (File (s_file s))) body)).
  { apply adds_handle; [apply gets_take|]. intros i. unfold body. apply adds_handle_in.
    destruct (s_root s); [apply adds_group, P|apply adds_handle_in, adds_group, P]. }
  destruct (B o w Ho S) as ([] & x & w' & E & X & L & F & W & _ & S').
  exists x, w'. split.
  - rewrite <- E. unfold write_state. rewrite (proj1 P). cbn [negb].
    unfold handle, bind. rewrite (T (if s_over s then _ else _)) by (destruct (s_over s); auto).
    destruct (gets_take (File (s_file s)) o w Ho S) as (k & w0 & -> & _). cbn [ret]. reflexivity.
  - split; [exact X|]. split; [exact L|]. split; [|split; [exact W|exact S']]. intros i k Hi. apply (F i k Hi).
Qed.

(** Several of them. *)
Lemma saves_leave : forall ss o w, healthy o -> sound w -> (forall s, In s ss -> plain_save s /\ ~ held (s_file s) w) ->
  exists w', each ss write_state o w = (Ret tt, w') /\
    length (w_open w') = length (w_open w) + list_sum (map left_by ss) /\ sound w' /\
    (forall f, held f w' -> held f w).
Proof.
  intros ss. induction ss as [|s ss IH]; intros o w Ho S H; cbn [each map list_sum fold_right].
  - exists w. repeat split; auto.
  - destruct (H s (or_introl eq_refl)) as [P U].
    destruct (save_leaves s o w Ho S U P) as (x & w1 & E & X & L & F & W & S1).
    assert (K : forall f, held f w1 -> held f w).
    { intros f (i & [Hi|Hi]); rewrite X in Hi; apply in_app_or in Hi;
        (destruct Hi as [Hi|Hi]; [apply F in Hi; discriminate|exists i; auto]). }
    destruct (IH o w1 Ho S1) as (w2 & E2 & L2 & S2 & K2).
    { intros s' Hs. destruct (H s' (or_intror Hs)) as [P' U']. split; [exact P'|]. intros C. apply U', K, C. }
    exists w2. unfold bind. rewrite E, E2. split; [reflexivity|]. split; [|split; [exact S2|auto]].
    rewrite L2, X, app_length, L. unfold list_sum. lia.
Qed.
