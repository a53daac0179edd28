(** Names of the zenith nodes in a file, and what the loops over the nodes write and read. *)
From Coq Require Import Reals ZArith NArith Ascii String DecimalString DecimalN DecimalFacts List Arith Bool Lia Lra.
From Verif Require Import Err StructModel CMatrix FlavorModel FileModel FileProofs FileProps AtmFileModel.
Import ListNotations.
Open Scope R_scope.

(** ** Rounding *)
Lemma nearest_close y : Rabs (IZR (nearest y) - y) <= 1 / 2.
Proof.
  unfold nearest. destruct (base_Int_part y) as [A B]. set (k := Int_part y) in *.
  assert (K : IZR (k + 1) = IZR k + 1) by (rewrite plus_IZR; reflexivity).
  destruct (Rlt_dec (y - IZR k) (1 / 2)); [apply Rabs_le; lra|].
  destruct (Rlt_dec (1 / 2) (y - IZR k)); [rewrite K; apply Rabs_le; lra|].
  destruct (Z.even k); [|rewrite K]; apply Rabs_le; lra.
Qed.

Lemma nearest_pos y : 0 <= y -> (0 <= nearest y)%Z.
Proof.
  intro H. pose proof (nearest_close y) as C.
  destruct (Z_lt_le_dec (nearest y) 0) as [L|L]; [|exact L].
  assert (IZR (nearest y) <= -1) by (apply IZR_le; lia).
  unfold Rabs in C. destruct (Rcase_abs (IZR (nearest y) - y)); lra.
Qed.

Lemma micro_same x y : micro x = micro y -> Rabs (Rabs x - Rabs y) * 1000000 <= 1.
Proof.
  unfold micro. intro E.
  assert (P : forall z, (0 <= nearest (Rabs z * 1000000))%Z).
  { intro z. apply nearest_pos. pose proof (Rabs_pos z). lra. }
  apply (f_equal Z.of_N) in E. rewrite !Z2N.id in E by apply P.
  pose proof (nearest_close (Rabs x * 1000000)) as A. pose proof (nearest_close (Rabs y * 1000000)) as B.
  rewrite E in A. set (k := IZR (nearest (Rabs y * 1000000))) in *.
  assert (Q : Rabs (Rabs x * 1000000 - Rabs y * 1000000) <= 1).
  { replace (Rabs x * 1000000 - Rabs y * 1000000) with ((k - Rabs y * 1000000) - (k - Rabs x * 1000000)) by ring.
    eapply Rle_trans; [apply Rabs_triang|]. rewrite Rabs_Ropp. lra. }
  replace (Rabs x * 1000000 - Rabs y * 1000000) with ((Rabs x - Rabs y) * 1000000) in Q by ring.
  rewrite Rabs_mult in Q. rewrite (Rabs_right 1000000) in Q by lra. exact Q.
Qed.

(** ** Decimal strings *)
Lemma str_app_assoc a b c : ((a ++ b) ++ c = a ++ (b ++ c))%string.
Proof. induction a as [|x a IH]; cbn; [reflexivity|]. rewrite IH. reflexivity. Qed.

(** equal strings whose last parts are equally long *)
Lemma app_split a b : forall s t, String.length a = String.length b -> (a ++ s = b ++ t)%string -> a = b /\ s = t.
Proof.
  revert b. induction a as [|x a IH]; intros [|y b] s t L E; cbn in L; try discriminate.
  - split; [reflexivity|exact E].
  - cbn in E. injection E as <- E. destruct (IH b s t (eq_add_S _ _ L) E) as [-> ->]. split; reflexivity.
Qed.

Lemma app_split_r a b s t : String.length s = String.length t -> (a ++ s = b ++ t)%string -> a = b /\ s = t.
Proof.
  intros L E. apply app_split; [|exact E]. apply (f_equal String.length) in E. rewrite !append_length in E. lia.
Qed.

Lemma digits_length k : forall m, String.length (digits k m) = k.
Proof. induction k as [|k IH]; intro m; cbn [digits]; [reflexivity|]. rewrite append_length, IH. cbn. lia. Qed.

Lemma digit_inj m m' : digit m = digit m' -> (m mod 10 = m' mod 10)%N.
Proof.
  unfold digit. intro E. apply (f_equal N_of_ascii) in E.
  rewrite !N_ascii_embedding in E.
  - lia.
  - pose proof (N.mod_lt m' 10). lia.
  - pose proof (N.mod_lt m 10). lia.
Qed.

Lemma digits_inj k : forall m m', digits k m = digits k m' -> (m mod 10 ^ N.of_nat k = m' mod 10 ^ N.of_nat k)%N.
Proof.
  induction k as [|k IH]; intros m m' E.
  - cbn. rewrite !N.mod_1_r. reflexivity.
  - cbn [digits] in E. apply app_split_r in E; [|reflexivity]. destruct E as [E1 E2].
    apply IH in E1. injection E2 as E2. apply digit_inj in E2.
    rewrite Nat2N.inj_succ, N.pow_succ_r'. rewrite !N.mod_mul_r by (try lia; apply N.pow_nonzero; lia).
    rewrite E1, E2. reflexivity.
Qed.

Lemma decN_inj a b : decN a = decN b -> a = b.
Proof.
  unfold decN. intro E. apply DecimalN.Unsigned.to_uint_inj.
  apply (f_equal NilEmpty.uint_of_string) in E. rewrite !NilEmpty.usu in E. injection E as E. exact E.
Qed.

Lemma decN_sign a s : decN a <> String "-" s.
Proof.
  unfold decN. intro E. apply (f_equal NilEmpty.uint_of_string) in E. rewrite NilEmpty.usu in E. cbn in E. destruct (NilEmpty.uint_of_string s); discriminate E.
Qed.

Definition negative (x : R) : bool := if Rlt_dec x 0 then true else false.

Lemma to_string_same x y : to_string x = to_string y <-> negative x = negative y /\ micro x = micro y.
Proof.
  unfold to_string, negative. split.
  - intro E.
    assert (T : forall a b, (decN (micro a / million) ++ "." ++ digits 6 (micro a))%string =
                            (decN (micro b / million) ++ "." ++ digits 6 (micro b))%string -> micro a = micro b).
    { intros a b H. apply app_split_r in H; [|rewrite !append_length, !digits_length; reflexivity].
      destruct H as [H1 H2]. apply decN_inj in H1. apply (app_split "." ".") in H2; [|reflexivity]. destruct H2 as [_ H2]. apply (digits_inj 6) in H2.
      change (10 ^ N.of_nat 6)%N with million in H2.
      rewrite (N.div_mod' (micro a) million), (N.div_mod' (micro b) million), H1, H2. reflexivity. }
    assert (N : forall a b s, (decN a ++ "." ++ b)%string = String "-" s -> False).
    { intros a b s H. destruct (decN a) as [|c w] eqn:W; [cbn in H; discriminate H|].
      cbn in H. injection H as -> H. exact (decN_sign _ _ W). }
    destruct (Rlt_dec x 0), (Rlt_dec y 0); cbn [append] in E.
    + split; [reflexivity|]. injection E as E. apply T. exact E.
    + exfalso. symmetry in E. exact (N _ _ _ E).
    + exfalso. exact (N _ _ _ E).
    + split; [reflexivity|]. apply T. exact E.
  - intros [E1 E2]. rewrite E2. destruct (Rlt_dec x 0), (Rlt_dec y 0); congruence || reflexivity.
Qed.

Lemma node_name_same x y : node_name x = node_name y <-> negative x = negative y /\ micro x = micro y.
Proof.
  unfold node_name. rewrite <- to_string_same. split.
  - intro E. apply app_split in E; [apply E|reflexivity].
  - intros ->. reflexivity.
Qed.

Lemma node_name_far x y : 1 / 1000000 < Rabs (x - y) -> node_name x <> node_name y.
Proof.
  intros D E. apply node_name_same in E. destruct E as [S M]. apply micro_same in M.
  assert (Q : Rabs (x - y) = Rabs (Rabs x - Rabs y)).
  { unfold negative in S. destruct (Rlt_dec x 0), (Rlt_dec y 0); try discriminate S.
    - rewrite (Rabs_left x), (Rabs_left y) by assumption. rewrite <- Rabs_Ropp. f_equal. ring.
    - rewrite (Rabs_right x), (Rabs_right y) by lra. reflexivity. }
  rewrite Q in D. lra.
Qed.

Lemma node_name_norm c : norm (node_name c) = node_name c.
Proof. reflexivity. Qed.
Lemma node_name_apart c : apart "crosssections" (node_name c).
Proof. right. unfold node_name. cbn. discriminate. Qed.
Lemma node_name_tables c p : xs_path p "crosssections" <> node_name c.
Proof. unfold xs_path, node_name. cbn. discriminate. Qed.
Lemma node_name_root c : node_name c <> "/"%string.
Proof. unfold node_name. cbn. discriminate. Qed.

(** ** The loops *)
Section Loops.
Context {B T PB PT : Type}.
Variable ser_body : B -> PB.
Variable ser_track : T -> PT.
Variable de_body : PB -> outcome B.
Variable de_track : PT -> outcome T.
Variable track_x : T -> R.
Variable maxdim : nat.
Variables sver nver : Z.
Variable pad : R.
Variable make_tables : obj B T -> outcome (istruct R).
Variable fresh : obj B T.
Variable is_earth : B -> bool.

Notation wr := (write_state ser_body ser_track sver nver make_tables).
Notation rd := (read_state de_body de_track track_x maxdim sver nver pad).
Notation rdi := (read_internal de_body de_track track_x maxdim sver nver pad).
Notation grp_of := (group_of ser_body ser_track sver nver).
Notation wn := (write_nodes ser_body ser_track sver nver make_tables).

Lemma write_free oob ov save loc grp f o f' : wr oob ov save loc grp f o = Ok f' -> has (norm grp) (base ov f) = false.
Proof.
  intro W. unfold write_state in W. destruct (o_body o); [|discriminate]. destruct (o_track o); [|discriminate].
  destruct (negb _); [discriminate|]. destruct (has _ _); [discriminate|reflexivity].
Qed.

Lemma write_taken oob ov save loc grp f o : complete maxdim o -> has (norm grp) (base ov f) = true ->
  wr oob ov save loc grp f o = Throw RuntimeError.
Proof.
  intros (Hb & Ht & Fb & Ft & Fs & Fe & _) H. unfold write_state.
  destruct (o_body o); [|contradiction]. destruct (o_track o); [|contradiction].
  rewrite Fb, Ft, Fs, Fe, H. reflexivity.
Qed.

(** later nodes leave the tables alone *)
Lemma write_keeps oob loc grp f o f' x : apart loc grp -> loc <> ""%string ->
  lookup (xs_path (norm grp) loc) f = Some x -> wr oob false false loc grp f o = Ok f' ->
  lookup (xs_path (norm grp) loc) f' = Some x.
Proof.
  intros Ap Nl L W. pose proof (xs_apart loc grp Ap) as N. unfold write_state in W.
  destruct (o_body o) as [b|]; [|discriminate]. destruct (o_track o) as [t|]; [|discriminate].
  destruct (negb _); [discriminate|]. destruct (has _ _); [discriminate|].
  fold (grp_of o b t) in W.
  assert (L1 : lookup (xs_path (norm grp) loc) (put (norm grp) (grp_of o b t) (base false f)) = Some x).
  { unfold put. rewrite lookup_put_other by exact N. exact L. }
  assert (S : (o_inter o && (if o_inter o then false else false))%bool = false) by (destruct (o_inter o); reflexivity).
  rewrite L1, S in W. destruct loc as [|c loc]; [contradiction|]. injection W as <-. exact L1.
Qed.

Lemma write_later oob loc grp f o : complete maxdim o -> loc <> ""%string -> has (norm grp) f = false ->
  exists f', wr oob false false loc grp f o = Ok f'.
Proof.
  intros (Hb & Ht & Fb & Ft & Fs & Fe & _) Nl H. unfold write_state.
  destruct (o_body o) as [b|]; [|contradiction]. destruct (o_track o) as [t|]; [|contradiction].
  rewrite Fb, Ft, Fs, Fe. cbn [andb negb base]. rewrite H.
  assert (S : (o_inter o && (if o_inter o then false else false))%bool = false) by (destruct (o_inter o); reflexivity).
  rewrite S. destruct loc as [|c loc]; [contradiction|].
  match goal with |- context [match ?x with Some _ => _ | None => _ end] => destruct x end; eexists; reflexivity.
Qed.

Lemma has_lookup q (f f' : file PB PT) : lookup q f' = lookup q f -> has q f' = has q f.
Proof. unfold has. intros ->. reflexivity. Qed.

Lemma loop_frame oob cos : forall l i f f', wn oob cos i l f = Ok f' ->
  forall q, (forall c, q <> node_name c) -> q <> "/crosssections"%string -> lookup q f' = lookup q f.
Proof.
  induction l as [|o l IH]; intros i f f' W q Q1 Q2; cbn [write_nodes] in W.
  - injection W as <-. reflexivity.
  - destruct (nth_error cos i) as [c|]; [|discriminate].
    destruct (wr oob false (Nat.eqb i 0) "crosssections" (node_name c) f o) as [f1| |] eqn:W1; cbn [obind] in W; try discriminate.
    rewrite (IH _ _ _ W q Q1 Q2). apply (written_places _ _ _ _ _ _ _ _ _ _ _ _ _ _ W1 (Q1 c) Q2).
Qed.

Lemma loop_written oob cos : forall l i f f', wn oob cos i l f = Ok f' ->
  (forall k o, nth_error l k = Some o -> exists c b t, nth_error cos (i + k) = Some c /\
     o_body o = Some b /\ o_track o = Some t /\
     lookup (node_name c) f' = Some (grp_of o b t) /\ has (node_name c) f = false) /\
  (forall q, q <> "/crosssections"%string ->
     (forall k c, (k < length l)%nat -> nth_error cos (i + k) = Some c -> q <> node_name c) -> lookup q f' = lookup q f) /\
  (forall x, (1 <= i)%nat -> lookup "/crosssections"%string f = Some x -> lookup "/crosssections"%string f' = Some x).
Proof.
  induction l as [|o l IH]; intros i f f' W; cbn [write_nodes] in W.
  - injection W as <-. repeat split; auto. intros [|k] o H; discriminate H.
  - destruct (nth_error cos i) as [c|] eqn:Hc; [|discriminate].
    destruct (wr oob false (Nat.eqb i 0) "crosssections" (node_name c) f o) as [f1| |] eqn:W1; cbn [obind] in W; try discriminate.
    destruct (IH _ _ _ W) as (I1 & I2 & I3).
    destruct (write_group _ _ _ _ _ _ _ _ _ _ _ _ _ (node_name_apart c) W1) as (b & t & Hb & Ht & L).
    rewrite node_name_norm in L.
    pose proof (write_free _ _ _ _ _ _ _ _ W1) as Fr. cbn [base] in Fr. rewrite node_name_norm in Fr.
    assert (Later : forall k o', nth_error l k = Some o' -> exists c' b' t', nth_error cos (S i + k) = Some c' /\
      o_body o' = Some b' /\ o_track o' = Some t' /\ lookup (node_name c') f' = Some (grp_of o' b' t') /\
      has (node_name c') f = false /\ node_name c' <> node_name c).
    { intros k o' Hk. destruct (I1 k o' Hk) as (c' & b' & t' & E1 & E2 & E3 & E4 & E5).
      assert (N : node_name c' <> node_name c).
      { intro E. rewrite E in E5. unfold has in E5. rewrite L in E5. discriminate E5. }
      exists c', b', t'. repeat split; auto. rewrite <- E5. symmetry. apply has_lookup.
      apply (written_places _ _ _ _ _ _ _ _ _ _ _ _ _ (node_name c') W1); [exact N|].
      intro E. exact (node_name_tables c' _ (eq_sym E)). }
    split; [|split].
    + intros [|k] o' Hk.
      * injection Hk as <-. exists c, b, t. rewrite Nat.add_0_r. repeat split; auto.
        rewrite (I2 (node_name c)); [exact L|intro E; exact (node_name_tables c "" (eq_sym E))|].
        intros k c' Lk Hk. destruct (nth_error l k) as [o'|] eqn:Ho; [|apply nth_error_None in Ho; lia].
        destruct (Later k o' Ho) as (c'' & _ & _ & E1 & _ & _ & _ & _ & N). rewrite Hk in E1. injection E1 as <-. auto.
      * cbn [nth_error] in Hk. destruct (Later k o' Hk) as (c' & b' & t' & E1 & E2 & E3 & E4 & E5 & _).
        exists c', b', t'. rewrite Nat.add_succ_r. repeat split; auto.
    + intros q Q1 Q2. rewrite I2; [|exact Q1|].
      * apply (written_places _ _ _ _ _ _ _ _ _ _ _ _ _ q W1); [|exact Q1].
        apply (Q2 0%nat); [cbn; lia|]. rewrite Nat.add_0_r. exact Hc.
      * intros k c' Lk Hk. apply (Q2 (S k) c'); [cbn; lia|]. rewrite Nat.add_succ_r. exact Hk.
    + intros x Hi Hx. apply I3; [lia|].
      replace (Nat.eqb i 0) with false in W1 by (symmetry; apply Nat.eqb_neq; lia).
      exact (write_keeps _ _ _ _ _ _ _ (node_name_apart c) ltac:(discriminate) Hx W1).
Qed.

(** complete nodes with different names are written once the first one is *)
Lemma loop_succeeds oob cos : forall l i f, (1 <= i)%nat -> (i + length l <= length cos)%nat -> Forall (complete maxdim) l ->
  NoDup (map node_name (skipn i cos)) -> (forall c, In c (skipn i cos) -> has (node_name c) f = false) ->
  exists f', wn oob cos i l f = Ok f'.
Proof.
  induction l as [|o l IH]; intros i f Hi Hl Hc Hn Hf; cbn [write_nodes]; [eexists; reflexivity|].
  cbn [length] in Hl. destruct (nth_error cos i) as [c|] eqn:Ec; [|apply nth_error_None in Ec; lia].
  assert (Sk : skipn i cos = c :: skipn (S i) cos).
  { clear - Ec. revert i Ec. induction cos as [|a cos IHc]; intros [|i] Ec; try discriminate Ec.
    - injection Ec as <-. reflexivity.
    - cbn [skipn]. rewrite (IHc i Ec). destruct cos; reflexivity. }
  rewrite Sk in Hn, Hf. cbn [map] in Hn. apply NoDup_cons_iff in Hn. destruct Hn as [Hn1 Hn2].
  inversion Hc as [|? ? Ho Hr]; subst.
  replace (Nat.eqb i 0) with false by (symmetry; apply Nat.eqb_neq; lia).
  destruct (write_later oob "crosssections" (node_name c) f o Ho ltac:(discriminate)) as [f1 W1].
  { rewrite node_name_norm. apply Hf. left. reflexivity. }
  rewrite W1. cbn [obind]. apply IH; auto; [lia|].
  intros c' Hin. rewrite <- (Hf c' (or_intror Hin)). apply has_lookup.
  apply (written_places _ _ _ _ _ _ _ _ _ _ _ _ _ (node_name c') W1).
  - intro E. apply Hn1. rewrite node_name_norm in E. rewrite <- E. apply in_map. exact Hin.
  - intro E. exact (node_name_tables c' _ (eq_sym E)).
Qed.

(** a node is restored from its group *)
Lemma internal_back c f s o b t : complete maxdim o -> codec ser_body ser_track de_body de_track o -> can_take fresh o -> (100000 < nver)%Z ->
  o_body o = Some b -> o_track o = Some t -> lookup (node_name c) f = Some (grp_of o b t) ->
  o_inter o = false \/ (exists x, s = Some x) ->
  exists o', rdi (node_name c) f s fresh = Ok o' /\ restored track_x o o' /\ o_basis o' = o_basis fresh /\
    (o_inter o = true -> Some (o_tab o') = s /\ o_tabled o' = true).
Proof.
  intros Hc Hcod Ht Hv Hb Htr L Hs.
  destruct (read_group ser_body ser_track de_body de_track track_x maxdim sver nver pad make_tables o fresh b t Hc Hcod Ht Hv Hb Htr)
    as (o' & Rd & Res & Bas & _).
  destruct (r_switches _ _ _ Res) as [E _].
  unfold read_internal. rewrite node_name_norm, L, Rd. cbn [obind]. rewrite E. destruct (o_inter o) eqn:I.
  - destruct Hs as [X|[x ->]]; [discriminate|]. eexists. split; [reflexivity|]. split; [|split].
    + destruct Res. constructor; cbn; assumption.
    + exact Bas.
    + intros _. cbn. auto.
  - exists o'. repeat split; try apply Res; auto; try discriminate; intros; apply Res; auto.
Qed.

Lemma state_back c f o b t : complete maxdim o -> codec ser_body ser_track de_body de_track o -> can_take fresh o -> (100000 < nver)%Z ->
  o_body o = Some b -> o_track o = Some t -> lookup (node_name c) f = Some (grp_of o b t) -> o_inter o = false ->
  exists o', rd "crosssections" (node_name c) f fresh = Ok o' /\ restored track_x o o' /\ o_basis o' = o_basis fresh.
Proof.
  intros Hc Hcod Ht Hv Hb Htr L Hi.
  destruct (read_group ser_body ser_track de_body de_track track_x maxdim sver nver pad make_tables o fresh b t Hc Hcod Ht Hv Hb Htr)
    as (o' & Rd & Res & Bas & _).
  exists o'. split; [|split; assumption]. unfold read_state. rewrite node_name_norm, L, Rd. cbn [obind].
  destruct (r_switches _ _ _ Res) as [E _]. rewrite E, Hi. reflexivity.
Qed.

Definition node_back (s : option (istruct R)) (o o' : obj B T) : Prop :=
  restored track_x o o' /\ o_basis o' = o_basis fresh /\ (o_inter o = true -> Some (o_tab o') = s /\ o_tabled o' = true).

Lemma rest_nodes_back f s : forall cos l, length l = length cos ->
  (forall k o, nth_error l k = Some o -> complete maxdim o /\ codec ser_body ser_track de_body de_track o /\ can_take fresh o /\
     (o_inter o = false \/ exists x, s = Some x) /\
     exists c b t, nth_error cos k = Some c /\ o_body o = Some b /\ o_track o = Some t /\
       lookup (node_name c) f = Some (grp_of o b t)) ->
  (100000 < nver)%Z ->
  exists l', read_rest_nodes de_body de_track track_x maxdim sver nver pad fresh f s cos = (Ok tt, l') /\
    Forall2 (node_back s) l l'.
Proof.
  intro cos. induction cos as [|c cos IH]; intros [|o l] Hl H Hv; try discriminate Hl.
  - exists []. split; [reflexivity|constructor].
  - destruct (H 0%nat o eq_refl) as (Hc & Hcod & Ht & Hs & c' & b & t & E & Hb & Htr & L).
    injection E as <-.
    destruct (internal_back c f s o b t Hc Hcod Ht Hv Hb Htr L Hs) as (o' & Rd & Res & Bas & Tb).
    destruct (IH l (eq_add_S _ _ Hl)) as (l' & E & F); [|exact Hv|].
    { intros k o1 Hk. exact (H (S k) o1 Hk). }
    exists (o' :: l'). cbn [read_rest_nodes]. rewrite Rd, E. split; [reflexivity|].
    constructor; [|exact F]. split; [exact Res|]. split; [exact Bas|exact Tb].
Qed.
End Loops.
