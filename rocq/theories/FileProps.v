(** C54: a state written to a file and read back; C72: the rows of the work
    arrays after reading. *)
From Coq Require Import Reals Ascii String List Arith Bool ZArith Lia Lra.
From Verif Require Import Err StructModel CMatrix FlavorModel FlavorProofs FlavorProps FlavorEqn FlavorEqnProps FileModel FileProofs.
Import ListNotations.
Open Scope R_scope.

Section Spec.
Context {B T : Type}.
Variable track_x : T -> R.

(** density matrices of an object of this type *)
Definition matrices (t : nutype) : nat := match t with Both => 2 | _ => 1 end.

(** [o'] holds what [o] held *)
Record restored (o o' : obj B T) : Prop := {
  r_nt : o_nt o' = o_nt o;
  r_flav : o_flav o' = o_flav o;
  r_nsun : o_nsun o' = o_flav o;
  r_E : o_E o' = o_E o;
  r_angle : forall i j, (i < j < o_flav o)%nat -> o_angle o' i j = o_angle o i j;
  r_phase : forall i j, (i < j < o_flav o)%nat -> o_phase o' i j = o_phase o i j;
  r_dm : forall i, (1 <= i < o_flav o)%nat -> o_dm o' i = o_dm o i;
  r_switches : o_inter o' = o_inter o /\ o_osc o' = o_osc o /\ o_tau o' = o_tau o /\ o_glash o' = o_glash o;
  r_t : o_t o' = o_t o;
  r_t0 : o_t0 o' = o_t0 o;
  r_body : o_body o' = o_body o;
  r_track : o_track o' = o_track o;
  r_off : forall tr, o_track o = Some tr -> o_off o' = o_t o - track_x tr;
  r_rho : forall ei r c, (ei < ne o)%nat -> (r < matrices (o_nt o))%nat -> (c < o_flav o * o_flav o)%nat ->
    o_rho o' ei r c = o_rho o ei r c;
  r_ready : o_ibody o' = true /\ o_itrack o' = true /\ o_istate o' = true /\ o_ienergy o' = true }.

(** rows of [n] items of arrays of row width [w] *)
Definition same_rows (n w : nat) (a a' : arr R) : Prop :=
  a_shape a' = a_shape a /\
  forall k, length (a_data a) = (k * w)%nat -> length (a_data a') = (k * w)%nat /\
  forall r i, (r < k)%nat -> (i < n)%nat -> nth (r * w + i) (a_data a') 0 = nth (r * w + i) (a_data a) 0.

Definition restored_tables (n w : nat) (s s' : istruct R) : Prop :=
  targets s' = targets s /\
  same_rows n w (dNdE_CC s) (dNdE_CC s') /\ same_rows n w (dNdE_NC s) (dNdE_NC s') /\
  same_rows n w (dNdE_GR s) (dNdE_GR s') /\ same_rows n w (sigma_CC s) (sigma_CC s') /\
  same_rows n w (sigma_NC s) (sigma_NC s') /\ same_rows n w (sigma_GR s) (sigma_GR s') /\
  same_rows n w (tau_all s) (tau_all s') /\ same_rows n w (tau_lep s) (tau_lep s').

(** an object that can be written: everything set, sizes agree *)
Definition complete (maxdim : nat) (o : obj B T) : Prop :=
  o_body o <> None /\ o_track o <> None /\
  o_ibody o = true /\ o_itrack o = true /\ o_istate o = true /\ o_ienergy o = true /\
  (3 <= o_flav o <= maxdim)%nat /\ (o_flav o <= 99)%nat /\ o_nsun o = o_flav o /\
  (1 <= ne o)%nat /\ o_nrhos o = matrices (o_nt o).

(** objects a state can be read into *)
Definition can_take (o0 o : obj B T) : Prop :=
  (2 <= ne o)%nat \/
  (ne o = 1%nat /\ o_nt o <> Both /\ o_ini o0 = false) \/
  (ne o = 1%nat /\ o_nt o <> Both /\ o_ini o0 = true /\ o_nsun o0 = o_flav o /\ o_t0 o0 = o_t0 o /\
   (1 <= o_nx o0)%nat /\ (1 <= o_nrhos o0)%nat).
End Spec.

Section FileTheorems.
Context {B T PB PT : Type}.
Variable ser_body : B -> PB.
Variable ser_track : T -> PT.
Variable de_body : PB -> outcome B.
Variable de_track : PT -> outcome T.
Variable track_x : T -> R.
Variable maxdim : nat.
Variables sver nver : Z.
Variable pad : R.
Variable make_tables : obj B T -> outcome (istruct R).

Notation wr := (write_state ser_body ser_track sver nver make_tables).
Notation rd := (read_state de_body de_track track_x maxdim sver nver pad).
Notation rdi := (read_internal de_body de_track track_x maxdim sver nver pad).
Notation rdc := (read_common de_body de_track track_x maxdim sver nver pad).

(** bodies and tracks come back from what they store (C21, C64) *)
Definition codec (o : obj B T) : Prop :=
  (forall b, o_body o = Some b -> de_body (ser_body b) = Ok b) /\
  (forall t, o_track o = Some t -> de_track (ser_track t) = Ok t).

(** the group the writer makes *)
Definition group_of (o : obj B T) (b : B) (t : T) : group PB PT :=
  Group (set_all (basic_attrs sver nver o ++ mixing_attrs o)) (state_dsets o) (Some (ser_body b)) (Some (ser_track t)).

Lemma mixing_not_basic o n a : ~ In (("basic"%string, n), a) (@mixing_attrs B T o).
Proof.
  unfold mixing_attrs. rewrite in_app_iff, in_flat_map, in_map_iff.
  intros [[p [_ [E|[E|[]]]]]|[i [E _]]]; discriminate.
Qed.

Lemma basic_attr o b t n a : In (("basic"%string, n), a) (basic_attrs sver nver o) ->
  (forall a', In (("basic"%string, n), a') (basic_attrs sver nver o) -> a' = a) ->
  look_attr "basic" n (g_attr (group_of o b t)) = Some a.
Proof.
  intros Hin Hu. cbn [group_of g_attr]. apply look_set.
  - apply in_app_iff. left. exact Hin.
  - intros a' H. apply in_app_iff in H. destruct H as [H|H]; [apply Hu; exact H|].
    exfalso. exact (mixing_not_basic o n a' H).
Qed.

Ltac basic := apply basic_attr; [cbn [basic_attrs In]; tauto|
  intros a' H; cbn [basic_attrs In] in H;
  repeat (destruct H as [H|H]; [try discriminate H; injection H as <-; reflexivity|]); contradiction].

Lemma angle_attr o b t i j : (o_flav o <= 99)%nat -> (i < j < o_flav o)%nat ->
  look_attr "mixingangles" (angle_label i j) (g_attr (group_of o b t)) = Some (ADbl (o_angle o i j)).
Proof.
  intros Hn H. cbn [group_of g_attr]. apply look_set.
  - apply in_app_iff. right. unfold mixing_attrs. apply in_app_iff. left. apply in_flat_map.
    exists (i, j). split; [apply in_pairs; exact H|]. left. reflexivity.
  - intros a' Hin. apply in_app_iff in Hin. destruct Hin as [Hin|Hin].
    + cbn [basic_attrs In] in Hin. repeat (destruct Hin as [Hin|Hin]; [discriminate Hin|]). contradiction.
    + unfold mixing_attrs in Hin. rewrite in_app_iff, in_flat_map, in_map_iff in Hin.
      destruct Hin as [[[i' j'] [Hp [E|[E|[]]]]]|[k [E _]]]; try discriminate E.
      pose proof (f_equal (fun x => snd (fst x)) E) as E1. pose proof (f_equal snd E) as E2. cbn [fst snd] in E1, E2. apply in_pairs in Hp.
      apply angle_label_inj in E1; try lia. destruct E1 as [-> ->]. symmetry. exact E2.
Qed.

Lemma phase_attr o b t i j : (o_flav o <= 99)%nat -> (i < j < o_flav o)%nat ->
  look_attr "CPphases" (phase_label i j) (g_attr (group_of o b t)) = Some (ADbl (o_phase o i j)).
Proof.
  intros Hn H. cbn [group_of g_attr]. apply look_set.
  - apply in_app_iff. right. unfold mixing_attrs. apply in_app_iff. left. apply in_flat_map.
    exists (i, j). split; [apply in_pairs; exact H|]. right. left. reflexivity.
  - intros a' Hin. apply in_app_iff in Hin. destruct Hin as [Hin|Hin].
    + cbn [basic_attrs In] in Hin. repeat (destruct Hin as [Hin|Hin]; [discriminate Hin|]). contradiction.
    + unfold mixing_attrs in Hin. rewrite in_app_iff, in_flat_map, in_map_iff in Hin.
      destruct Hin as [[[i' j'] [Hp [E|[E|[]]]]]|[k [E _]]]; try discriminate E.
      pose proof (f_equal (fun x => snd (fst x)) E) as E1. pose proof (f_equal snd E) as E2. cbn [fst snd] in E1, E2. apply in_pairs in Hp.
      apply phase_label_inj in E1; try lia. destruct E1 as [-> ->]. symmetry. exact E2.
Qed.

Lemma dm_attr o b t i : (1 <= i < o_flav o)%nat ->
  look_attr "massdifferences" (dm_label i) (g_attr (group_of o b t)) = Some (ADbl (o_dm o i)).
Proof.
  intros H. cbn [group_of g_attr]. apply look_set.
  - apply in_app_iff. right. unfold mixing_attrs. apply in_app_iff. right. apply in_map_iff.
    exists i. split; [reflexivity|]. apply in_seq. lia.
  - intros a' Hin. apply in_app_iff in Hin. destruct Hin as [Hin|Hin].
    + cbn [basic_attrs In] in Hin. repeat (destruct Hin as [Hin|Hin]; [discriminate Hin|]). contradiction.
    + unfold mixing_attrs in Hin. rewrite in_app_iff, in_flat_map, in_map_iff in Hin.
      destruct Hin as [[[i' j'] [Hp [E|[E|[]]]]]|[k [E _]]]; try discriminate E.
      pose proof (f_equal (fun x => snd (fst x)) E) as E1. pose proof (f_equal snd E) as E2. cbn [fst snd] in E1, E2. apply dm_label_inj in E1. subst k. symmetry. exact E2.
Qed.

Lemma read_pairs_ok (g : group PB PT) an ph l a0 p0 :
  (forall i j, In (i, j) l -> get_dbl g "mixingangles" (angle_label i j) = Some (an i j)) ->
  (forall i j, In (i, j) l -> get_dbl g "CPphases" (phase_label i j) = Some (ph i j)) ->
  exists a p, read_pairs g l a0 p0 = Ok (a, p) /\
    forall i j, (In (i, j) l -> a i j = an i j /\ p i j = ph i j) /\
                (~ In (i, j) l -> a i j = a0 i j /\ p i j = p0 i j).
Proof.
  revert a0 p0. induction l as [|[i j] l IH]; intros a0 p0 HA HP.
  - exists a0, p0. split; [reflexivity|]. intros i j. split; [contradiction|]. intros _. split; reflexivity.
  - cbn [read_pairs]. rewrite (HA i j (or_introl eq_refl)), (HP i j (or_introl eq_refl)). cbn [need].
    destruct (IH (upd2 a0 i j (an i j)) (upd2 p0 i j (ph i j))) as [a [p [E H]]].
    { intros i' j' H. apply HA. right. exact H. } { intros i' j' H. apply HP. right. exact H. }
    exists a, p. split; [exact E|]. intros i' j'. destruct (H i' j') as [H1 H2].
    assert (D : In (i', j') l \/ ~ In (i', j') l).
    { destruct (in_dec (fun x y : nat * nat => ltac:(decide equality; apply Nat.eq_dec)) (i', j') l); [left|right]; assumption. }
    split.
    + intros [E'|H']; [|apply H1; exact H']. injection E' as <- <-.
      destruct D as [D|D]; [apply H1; exact D|]. destruct (H2 D) as [-> ->].
      unfold upd2. rewrite !Nat.eqb_refl. split; reflexivity.
    + intros H'. destruct (H2 (fun h => H' (or_intror h))) as [-> ->]. unfold upd2.
      destruct (Nat.eqb_spec i' i) as [->|]; [|split; reflexivity].
      destruct (Nat.eqb_spec j' j) as [->|]; [|split; reflexivity].
      exfalso. apply H'. left. reflexivity.
Qed.

Lemma read_dms_ok (g : group PB PT) dm l d0 :
  (forall i, In i l -> get_dbl g "massdifferences" (dm_label i) = Some (dm i)) ->
  exists d, read_dms g l d0 = Ok d /\ forall i, (In i l -> d i = dm i) /\ (~ In i l -> d i = d0 i).
Proof.
  revert d0. induction l as [|i l IH]; intros d0 H.
  - exists d0. split; [reflexivity|]. intro i. split; [contradiction|]. reflexivity.
  - cbn [read_dms]. rewrite (H i (or_introl eq_refl)). cbn [need].
    destruct (IH (upd1 d0 i (dm i))) as [d [E Hd]]; [intros i' Hi; apply H; right; exact Hi|].
    exists d. split; [exact E|]. intro i'. destruct (Hd i') as [H1 H2].
    destruct (in_dec Nat.eq_dec i' l) as [D|D].
    + split; [intros _; apply H1; exact D|]. intro N. exfalso. apply N. right. exact D.
    + split.
      * intros [->|H']; [|contradiction]. rewrite (H2 D). unfold upd1. rewrite Nat.eqb_refl. reflexivity.
      * intro N. rewrite (H2 D). unfold upd1. destruct (Nat.eqb_spec i' i) as [->|]; [|reflexivity].
        exfalso. apply N. left. reflexivity.
Qed.

Lemma nt_code_of t : nt_of (nt_code t) = Some t.
Proof. destruct t; reflexivity. Qed.

Lemma state_data_length (o : obj B T) r : length (state_data o r) = (ne o * (o_flav o * o_flav o))%nat.
Proof. unfold state_data. rewrite flat_length, seq_length. reflexivity. Qed.

Lemma state_data_nth (o : obj B T) r ei c : (ei < ne o)%nat -> (c < o_flav o * o_flav o)%nat ->
  nth (ei * (o_flav o * o_flav o) + c) (state_data o r) 0 = match r with Some r => o_rho o ei r c | None => 0 end.
Proof.
  intros He Hc. unfold state_data.
  exact (nth_flat (fun ei c => match r with Some r => o_rho o ei r c | None => 0 end) _ _ 0 ei c 0 He Hc).
Qed.

Lemma get_flag_ok o b t n v old :
  look_attr "basic" n (g_attr (group_of o b t)) = Some (AInt (bool_int v)) ->
  get_flag (group_of o b t) n old = v.
Proof. unfold get_flag, get_int. intros ->. destruct v; reflexivity. Qed.

(** the object after the header has been read *)
Definition headed (o o0 : obj B T) (b : B) (t : T) : obj B T :=
  Obj (o_nt o) (o_flav o) (o_E o) (o_nsun o0) (o_nx o0) (o_nrhos o0) (o_rho o0) (o_angle o0) (o_phase o0)
     (o_dm o0) (o_inter o) (o_osc o) (o_tau o) (o_glash o) (o_t o0) (o_t0 o0) (o_off o0) (Some b) (Some t) (o_basis o0)
     (o_tabled o0) (o_tab o0) (o_row o0) (o_ini o0) (o_ibody o0) (o_itrack o0) (o_istate o0) (o_ienergy o0).

Lemma header_back o o0 b t : codec o -> (100000 < nver)%Z -> o_body o = Some b -> o_track o = Some t ->
  read_header de_body de_track sver nver (group_of o b t) o0 = Ok (headed o o0 b t, o_t o, o_t0 o, nver).
Proof.
  intros [Cb Ct] Hv Hb Ht. set (g := group_of o b t).
  assert (A1 : get_int g "basic" "numneu" = Some (Z.of_nat (o_flav o))).
  { unfold get_int, g. assert (E : look_attr "basic" "numneu" (g_attr (group_of o b t)) = Some (AInt (Z.of_nat (o_flav o)))) by basic.
    rewrite E. reflexivity. }
  assert (A2 : get_int g "basic" "NT" = Some (nt_code (o_nt o))).
  { unfold get_int, g. assert (E : look_attr "basic" "NT" (g_attr (group_of o b t)) = Some (AInt (nt_code (o_nt o)))) by basic.
    rewrite E. reflexivity. }
  assert (A3 : get_str g "basic" "interactions" = Some (if o_inter o then "True" else "False")%string).
  { unfold get_str, g. assert (E : look_attr "basic" "interactions" (g_attr (group_of o b t)) = Some (AStr (if o_inter o then "True" else "False")%string)) by basic.
    rewrite E. reflexivity. }
  assert (A4 : get_dbl g "basic" "squids_time" = Some (o_t o)).
  { unfold get_dbl, g. assert (E : look_attr "basic" "squids_time" (g_attr (group_of o b t)) = Some (ADbl (o_t o))) by basic.
    rewrite E. reflexivity. }
  assert (A5 : get_dbl g "basic" "squids_time_initial" = Some (o_t0 o)).
  { unfold get_dbl, g. assert (E : look_attr "basic" "squids_time_initial" (g_attr (group_of o b t)) = Some (ADbl (o_t0 o))) by basic.
    rewrite E. reflexivity. }
  assert (A6 : get_int g "basic" "squids_version_number" = Some sver).
  { unfold get_int, g. assert (E : look_attr "basic" "squids_version_number" (g_attr (group_of o b t)) = Some (AInt sver)) by basic.
    rewrite E. reflexivity. }
  assert (A7 : get_int g "basic" "nusquids_version_number" = Some nver).
  { unfold get_int, g. assert (E : look_attr "basic" "nusquids_version_number" (g_attr (group_of o b t)) = Some (AInt nver)) by basic.
    rewrite E. reflexivity. }
  assert (A8 : forall old, get_flag g "oscillations" old = o_osc o) by (intro old; apply get_flag_ok; basic).
  assert (A9 : forall old, get_flag g "tau_regeneration" old = o_tau o) by (intro old; apply get_flag_ok; basic).
  assert (A10 : forall old, get_flag g "glashow_resonance" old = o_glash o) by (intro old; apply get_flag_ok; basic).
  assert (D1 : get_dset g "energies" = Some ([ne o], o_E o)) by reflexivity.
  unfold read_header. rewrite A1, A2, A3, A4, A5, A6, A7. cbn [need].
  rewrite !Z.ltb_irrefl. rewrite (proj2 (Z.leb_gt _ _) Hv).
  change (g_body g) with (Some (ser_body b)). change (g_track g) with (Some (ser_track t)).
  cbv iota beta. rewrite (Cb b Hb), (Ct t Ht). cbn [obind]. rewrite D1. cbn [need snd]. rewrite nt_code_of, Nat2Z.id.
  rewrite A8, A9, A10.
  assert (In1 : String.eqb (if o_inter o then "True" else "False") "True" = o_inter o) by (destruct (o_inter o); reflexivity).
  rewrite In1. reflexivity.
Qed.

(** an object large enough takes the rest of the state *)
Lemma rest_back (o o2 : obj B T) (b : B) t : (o_flav o <= 99)%nat -> o_track o2 = Some t ->
  o_nt o2 = o_nt o -> o_flav o2 = o_flav o -> (o_flav o <= o_nsun o2)%nat -> (ne o <= o_nx o2)%nat -> (highest (o_nt o) < o_nrhos o2)%nat ->
  exists rho an ph dms, read_rest track_x (group_of o b t) (o_t o) o2 =
      Ok (Obj (o_nt o) (o_flav o) (o_E o2) (o_nsun o2) (o_nx o2) (o_nrhos o2) rho an ph dms
            (o_inter o2) (o_osc o2) (o_tau o2) (o_glash o2) (o_t o) (o_t0 o2) (o_t o - track_x t) (o_body o2) (Some t)
            (o_basis o2) (o_tabled o2) (o_tab o2) (o_row o2) (o_ini o2) true true true true) /\
    (forall i j, (i < j < o_flav o)%nat -> an i j = o_angle o i j /\ ph i j = o_phase o i j) /\
    (forall i, (1 <= i < o_flav o)%nat -> dms i = o_dm o i) /\
    (forall ei r c, (ei < ne o)%nat -> (r < matrices (o_nt o))%nat -> (c < o_flav o * o_flav o)%nat ->
       rho ei r c = o_rho o ei r c).
Proof.
  intros H99 Tr Nt Fl I1 I2 I3. set (g := group_of o b t). unfold read_rest. rewrite Nt, Fl, Tr.
  destruct (read_pairs_ok g (o_angle o) (o_phase o) (pairs (o_flav o)) (o_angle o2) (o_phase o2)) as (an & ph & RP & HP).
  { intros i j H. apply in_pairs in H. unfold get_dbl, g. rewrite angle_attr by assumption. reflexivity. }
  { intros i j H. apply in_pairs in H. unfold get_dbl, g. rewrite phase_attr by assumption. reflexivity. }
  rewrite RP. cbn [obind].
  destruct (read_dms_ok g (o_dm o) (seq 1 (o_flav o - 1)) (o_dm o2)) as (dms & RD & HD).
  { intros i H. apply in_seq in H. unfold get_dbl, g. rewrite dm_attr by lia. reflexivity. }
  assert (D2 : get_dset g "neustate" = Some ([ne o; o_flav o * o_flav o]%nat, state_data o (nu_index (o_nt o)))) by reflexivity.
  assert (D3 : get_dset g "aneustate" = Some ([ne o; o_flav o * o_flav o]%nat, state_data o (anti_index (o_nt o)))) by reflexivity.
  rewrite RD. cbn [obind need]. rewrite D2, D3. cbn [need fst snd].
  assert (G : (Nat.ltb (o_nx o2) (ne o) || Nat.ltb (o_nsun o2 * o_nsun o2) (o_flav o * o_flav o)
     || Nat.leb (o_nrhos o2) (highest (o_nt o))
     || Nat.ltb (length (state_data o (nu_index (o_nt o)))) (ne o * (o_flav o * o_flav o))
     || Nat.ltb (length (state_data o (anti_index (o_nt o)))) (ne o * (o_flav o * o_flav o)))%bool = false).
  { rewrite !orb_false_iff, !state_data_length. repeat split; try (apply Nat.ltb_ge; nia). apply Nat.leb_gt. exact I3. }
  rewrite G. do 4 eexists. split; [reflexivity|]. cbn [fst snd]. split; [|split].
  - intros i j H. apply HP. apply in_pairs. exact H.
  - intros i H. apply HD. apply in_seq. lia.
  - intros ei r c He Hr Hc. unfold read_rho. rewrite (proj2 (Nat.ltb_lt _ _) He), (proj2 (Nat.ltb_lt _ _) Hc). cbn [andb].
    destruct (o_nt o) eqn:Ent; cbn [matrices] in Hr.
    + destruct r; [|lia]. rewrite state_data_nth by assumption. reflexivity.
    + destruct r; [|lia]. rewrite state_data_nth by assumption. reflexivity.
    + destruct r as [|[|r]]; [| |lia]; rewrite state_data_nth by assumption; reflexivity.
Qed.

Lemma dims_ok o : (3 <= o_flav o <= maxdim)%nat ->
  (Nat.ltb maxdim (@o_flav B T o) || Nat.ltb (o_flav o) 3)%bool = false.
Proof. intro H. apply orb_false_iff. split; apply Nat.ltb_ge; lia. Qed.

Lemma initialise_ok o o0 b t : complete maxdim o -> can_take o0 o ->
  exists o2, initialise maxdim pad (headed o o0 b t) (o_t0 o) = Ok o2 /\
      o_nsun o2 = o_flav o /\ (ne o <= o_nx o2)%nat /\ (highest (o_nt o) < o_nrhos o2)%nat /\ o_E o2 = o_E o /\
      o_t0 o2 = o_t0 o /\ (o_inter o2 = o_inter o /\ o_osc o2 = o_osc o /\ o_tau o2 = o_tau o /\ o_glash o2 = o_glash o) /\
      (o_nt o2 = o_nt o /\ o_flav o2 = o_flav o /\ o_body o2 = Some b /\ o_track o2 = Some t) /\
      (o_basis o2 = o_basis o0 /\ o_tabled o2 = o_tabled o0 /\ o_tab o2 = o_tab o0 /\ o_row o2 = o_row o0) /\
      (o_ini o0 = false \/ (2 <= ne o)%nat -> o_nrhos o2 = matrices (o_nt o) /\ o_nx o2 = ne o).
Proof.
  intros (Hb0 & Ht0 & Fb & Ft & Fs & Fe & Hf & H99 & Hns & Hne & Hnr) Take.
  pose proof (dims_ok o Hf) as M. unfold initialise. cbn [headed o_E o_ini].
  destruct Take as [L|[(L & Nb & Ni)|(L & Nb & Ni & S1 & S2 & S3 & S4)]].
  - assert (I : exists o2, init_multi maxdim pad (headed o o0 b t) (o_t0 o) (o_E o) = Ok o2 /\
      o_nsun o2 = o_flav o /\ (ne o <= o_nx o2)%nat /\ (highest (o_nt o) < o_nrhos o2)%nat /\ o_E o2 = o_E o /\
      o_t0 o2 = o_t0 o /\ (o_inter o2 = o_inter o /\ o_osc o2 = o_osc o /\ o_tau o2 = o_tau o /\ o_glash o2 = o_glash o) /\
      (o_nt o2 = o_nt o /\ o_flav o2 = o_flav o /\ o_body o2 = Some b /\ o_track o2 = Some t) /\
      (o_basis o2 = o_basis o0 /\ o_tabled o2 = o_tabled o0 /\ o_tab o2 = o_tab o0 /\ o_row o2 = o_row o0) /\
      (o_ini o0 = false \/ (2 <= ne o)%nat -> o_nrhos o2 = matrices (o_nt o) /\ o_nx o2 = ne o)).
    { unfold init_multi. cbn [o_flav headed]. rewrite M. pose proof L as L'. unfold ne in L'.
      rewrite (proj2 (Nat.eqb_neq (length (o_E o)) 0)) by lia.
      eexists. split; [reflexivity|]. cbn. unfold ne. repeat split; try reflexivity; try lia; destruct (o_nt o); cbn; lia. }
    destruct (o_E o) as [|e1 [|e2 es]] eqn:EE; unfold ne in L; rewrite EE in L; cbn [length] in L; try lia. exact I.
  - destruct (o_E o) as [|e1 [|e2 es]] eqn:EE; pose proof L as L'; unfold ne in L'; rewrite EE in L'; cbn [length] in L'; try discriminate.
    rewrite Ni. unfold init_single. cbn [o_nt o_flav headed]. rewrite M.
    destruct (o_nt o) eqn:Ent; [| |contradiction Nb; reflexivity];
      (eexists; split; [reflexivity|]; cbn; rewrite L; repeat split; try reflexivity; try lia; assumption).
  - destruct (o_E o) as [|e1 [|e2 es]] eqn:EE; pose proof L as L'; unfold ne in L'; rewrite EE in L'; cbn [length] in L'; try discriminate.
    rewrite Ni. exists (set_e (headed o o0 b t) e1). split; [reflexivity|]. cbn. rewrite L.
    assert (highest (o_nt o) < o_nrhos o0)%nat by (destruct (o_nt o); cbn [highest]; try lia; contradiction Nb; reflexivity).
    repeat split; try reflexivity; try assumption; try lia. all: intros [X|X]; try discriminate; lia.
Qed.

(** the common part of both readers *)
Lemma read_group o o0 b t : complete maxdim o -> codec o -> can_take o0 o -> (100000 < nver)%Z ->
  o_body o = Some b -> o_track o = Some t ->
  exists o', rdc (group_of o b t) o0 = Ok (o', nver) /\ restored track_x o o' /\
    o_basis o' = o_basis o0 /\ o_tabled o' = o_tabled o0 /\ o_tab o' = o_tab o0 /\ o_row o' = o_row o0 /\
    (o_ini o0 = false \/ (2 <= ne o)%nat -> o_nrhos o' = matrices (o_nt o) /\ o_nx o' = ne o).
Proof.
  intros Hc Hcod Take Hv Hb Ht. unfold read_common. rewrite (header_back o o0 b t Hcod Hv Hb Ht). cbn [obind].
  destruct (initialise_ok o o0 b t Hc Take) as (o2 & I & I1 & I2 & I3 & I4 & I5 & I6 & (I7 & I8 & I9 & I10) & (I11 & I12 & I13 & I14) & I15).
  rewrite I. cbn [obind].
  destruct (rest_back o o2 b t) as (rho & an & ph & dms & E & P1 & P2 & P3); try assumption; try lia.
  { apply Hc. }
  rewrite E. cbn [obind]. eexists. split; [reflexivity|]. split; [|cbn; tauto].
  constructor; cbn.
  - reflexivity.
  - reflexivity.
  - exact I1.
  - exact I4.
  - intros i j H. apply P1. exact H.
  - intros i j H. apply P1. exact H.
  - exact P2.
  - exact I6.
  - reflexivity.
  - exact I5.
  - rewrite I9, Hb. reflexivity.
  - symmetry. exact Ht.
  - intros tr E'. rewrite Ht in E'. injection E' as <-. reflexivity.
  - exact P3.
  - repeat split.
Qed.

(** ** Files *)
Lemma lookup_put_same {A} p (g : A) (f : list (string * A)) : lookup p ((p, g) :: f) = Some g.
Proof. cbn [lookup]. rewrite String.eqb_refl. reflexivity. Qed.
Lemma lookup_put_other {A} p q (g : A) (f : list (string * A)) : q <> p -> lookup q ((p, g) :: f) = lookup q f.
Proof. intro N. cbn [lookup]. destruct (String.eqb_spec q p); [contradiction|reflexivity]. Qed.

Lemma append_length a b : String.length (a ++ b)%string = (String.length a + String.length b)%nat.
Proof. induction a as [|c a IH]; cbn; [reflexivity|]. rewrite IH. reflexivity. Qed.

Lemma under_other p sub : p <> ""%string -> sub <> ""%string -> under p sub <> p.
Proof.
  intros Hp Hs E. unfold under in E. destruct (is_root p) eqn:R.
  - apply String.eqb_eq in R. subst p. apply (f_equal String.length) in E. rewrite append_length in E. cbn in E.
    destruct sub; [contradiction Hs; reflexivity|cbn in E; lia].
  - apply (f_equal String.length) in E. rewrite !append_length in E. cbn in E. lia.
Qed.
Lemma norm_nonempty s : norm s <> ""%string.
Proof. unfold norm. destruct s as [|c s]; [discriminate|]. destruct (Ascii.eqb c "/"); discriminate. Qed.

(** a place for the tables that is not the group itself *)
Definition apart (loc grp : string) : Prop := loc = ""%string \/ norm loc <> norm grp.
Lemma xs_apart loc grp : apart loc grp -> xs_path (norm grp) loc <> norm grp.
Proof.
  unfold apart, xs_path. intros [->|H].
  - rewrite String.eqb_refl. apply under_other; [apply norm_nonempty|discriminate].
  - destruct (String.eqb loc "").
    + apply under_other; [apply norm_nonempty|discriminate].
    + exact H.
Qed.

(** what a successful write leaves behind *)
Lemma write_group oob ov save loc grp f o f' : apart loc grp -> wr oob ov save loc grp f o = Ok f' ->
  exists b t, o_body o = Some b /\ o_track o = Some t /\ lookup (norm grp) f' = Some (group_of o b t).
Proof.
  intros Ap W. unfold write_state in W. destruct (o_body o) as [b|]; [|discriminate].
  destruct (o_track o) as [t|]; [|discriminate]. exists b, t. split; [reflexivity|]. split; [reflexivity|].
  destruct (negb _); [discriminate|].
  destruct (has _ _); [discriminate|].
  pose proof (xs_apart loc grp Ap) as N.
  fold (group_of o b t) in W.
  set (f1 := put (norm grp) (group_of o b t) (base ov f)) in *.
  assert (L1 : lookup (norm grp) f1 = Some (group_of o b t)) by apply lookup_put_same.
  assert (P1 : forall x, lookup (norm grp) (put (xs_path (norm grp) loc) x f1) = Some (group_of o b t)).
  { intro x. unfold put at 1. rewrite lookup_put_other by (intro E; apply N; symmetry; exact E). exact L1. }
  destruct (lookup (xs_path (norm grp) loc) f1) as [x|]; destruct loc as [|c loc]; try discriminate W;
    (destruct (o_inter o && _)%bool; [|injection W as <-; first [exact L1|apply P1]];
     destruct (if o_tabled o then Ok (o_tab o) else make_tables o) as [s| |]; cbn [obind] in W; try discriminate W;
     destruct (lookup "targets" _); [discriminate W|];
     destruct (table_dsets oob o s) as [ds| |]; cbn [obind] in W; try discriminate W;
     injection W as <-; apply P1).
Qed.

(** writing succeeds on a free place *)
Lemma write_ok oob ov save loc grp f o : complete maxdim o -> o_inter o = false \/ save = false ->
  has (norm grp) (base ov f) = false -> has (xs_path (norm grp) loc) (base ov f) = false -> apart loc grp ->
  exists f', wr oob ov save loc grp f o = Ok f'.
Proof.
  intros (Hb & Ht & Fb & Ft & Fs & Fe & _) Hs Hp Hx Ap. unfold write_state.
  destruct (o_body o) as [b|]; [|contradiction]. destruct (o_track o) as [t|]; [|contradiction].
  rewrite Fb, Ft, Fs, Fe. cbn [andb negb]. rewrite Hp.
  unfold put at 1 2 3 4 5 6. rewrite lookup_put_other by (apply xs_apart; exact Ap).
  unfold has in Hx. destruct (lookup (xs_path (norm grp) loc) (base ov f)); [discriminate|].
  assert (S : (o_inter o && (if o_inter o then save else false))%bool = false).
  { destruct Hs as [->| ->]; [reflexivity|]. destruct (o_inter o); reflexivity. }
  rewrite S. destruct loc; eexists; reflexivity.
Qed.

(** ** C54 *)

(** Without interactions every complete state with at most 99 flavours is
    restored by reading, whatever was in the file and in the object before. *)
Theorem c54_state_partial oob ov save loc grp f o o0 f' :
  complete maxdim o -> codec o -> can_take o0 o -> (100000 < nver)%Z -> apart loc grp -> o_inter o = false ->
  wr oob ov save loc grp f o = Ok f' ->
  exists o', rd loc grp f' o0 = Ok o' /\ restored track_x o o' /\ o_basis o' = o_basis o0.
Proof.
  intros Hc Hcod Ht Hv Ap Hi W. destruct (write_group _ _ _ _ _ _ _ _ Ap W) as (b & t & Hb & Htr & L).
  destruct (read_group o o0 b t Hc Hcod Ht Hv Hb Htr) as (o' & R & Res & Bas & _).
  exists o'. split; [|split; assumption]. unfold read_state. rewrite L, R. cbn [obind].
  destruct (r_switches _ _ _ Res) as [E _]. rewrite E, Hi. reflexivity.
Qed.

(** and it can be written to any place not yet taken *)
Theorem c54_written oob ov save loc grp f o : complete maxdim o -> o_inter o = false ->
  has (norm grp) (base ov f) = false -> has (xs_path (norm grp) loc) (base ov f) = false -> apart loc grp ->
  exists f', wr oob ov save loc grp f o = Ok f'.
Proof. intros Hc Hi. apply write_ok; [exact Hc|left; exact Hi]. Qed.

(** With tables given from elsewhere (the further nodes of an atmospheric
    object, ReadStateHDF5Internal). *)
Theorem c54_internal_partial oob ov save loc grp f o o0 f' s :
  complete maxdim o -> codec o -> can_take o0 o -> (100000 < nver)%Z -> apart loc grp ->
  wr oob ov save loc grp f o = Ok f' ->
  exists o', rdi grp f' (Some s) o0 = Ok o' /\ restored track_x o o' /\ o_basis o' = o_basis o0 /\
    (o_inter o = true -> o_tabled o' = true /\ o_tab o' = s /\ o_row o' = rounded (ne o)).
Proof.
  intros Hc Hcod Ht Hv Ap W. destruct (write_group _ _ _ _ _ _ _ _ Ap W) as (b & t & Hb & Htr & L).
  destruct (read_group o o0 b t Hc Hcod Ht Hv Hb Htr) as (o' & R & Res & Bas & _).
  destruct (r_switches _ _ _ Res) as [E _].
  unfold read_internal. rewrite L, R. cbn [obind]. rewrite E. destruct (o_inter o) eqn:I.
  - eexists. split; [reflexivity|]. split; [|split].
    + destruct Res. constructor; cbn; assumption.
    + exact Bas.
    + intros _. cbn. unfold ne. rewrite (r_E _ _ _ Res). repeat split.
  - exists o'. split; [reflexivity|]. split; [exact Res|]. split; [exact Bas|]. discriminate.
Qed.

Lemma lookup_app {A} k (l m : list (string * A)) : lookup k l = None -> lookup k (l ++ m) = lookup k m.
Proof.
  induction l as [|[k' a] l IH]; cbn [app lookup]; [reflexivity|]. destruct (String.eqb k k'); [discriminate|exact IH].
Qed.

Lemma shaped_true (a : arr R) sh : a_shape a = sh -> shaped a sh = true.
Proof. intro E. unfold shaped. destruct (list_eq_dec Nat.eq_dec (a_shape a) sh); [reflexivity|contradiction]. Qed.

Lemma filled_rows (a : arr R) k w sh : filled a -> a_shape a = sh -> fold_right Nat.mul 1%nat sh = (k * w)%nat ->
  length (a_data a) = (k * w)%nat.
Proof. intros F E P. unfold filled in F. rewrite F, E. exact P. Qed.

Lemma same_rows_intro n w (a a' : arr R) k : (0 < w)%nat -> a_shape a' = a_shape a ->
  length (a_data a) = (k * w)%nat -> length (a_data a') = (k * w)%nat ->
  (forall r i, (r < k)%nat -> (i < n)%nat -> nth (r * w + i) (a_data a') 0 = nth (r * w + i) (a_data a) 0) ->
  same_rows n w a a'.
Proof.
  intros Hw S L L' H. split; [exact S|]. intros k' E. assert (k' = k) by nia. subst k'. split; [exact L'|exact H].
Qed.

(** also with tables of the object's extents, whatever value is found past the extents *)
Theorem c54_tables_written g ov save loc grp f o w : complete maxdim o -> o_tabled o = true ->
  sized_for (length (targets (o_tab o))) (o_nrhos o) (o_flav o) (ne o) w (o_tab o) ->
  has (norm grp) (base ov f) = false -> has (xs_path (norm grp) loc) (base ov f) = false -> apart loc grp ->
  exists f', wr (Some g) ov save loc grp f o = Ok f'.
Proof.
  intros Hc Htab (S1 & S2 & S3 & S4 & S5 & S6 & S7 & S8) Hp Hx Ap.
  destruct (o_inter o && save)%bool eqn:Hs.
  2:{ apply write_ok; try assumption. destruct (o_inter o); [right|left]; destruct save; try discriminate; reflexivity. }
  apply andb_true_iff in Hs. destruct Hs as [Hi ->].
  destruct Hc as (Hb & Ht & Fb & Ft & Fs & Fe & _). unfold write_state.
  destruct (o_body o) as [b|]; [|contradiction]. destruct (o_track o) as [t|]; [|contradiction].
  rewrite Fb, Ft, Fs, Fe. cbn [andb negb]. rewrite Hp.
  unfold put. rewrite lookup_put_other by (apply xs_apart; exact Ap).
  unfold has in Hx. destruct (lookup (xs_path (norm grp) loc) (base ov f)); [discriminate|].
  rewrite Hi, Htab. cbn [andb obind empty_group g_data lookup].
  assert (TD : exists ds, table_dsets (Some g) o (o_tab o) = Ok ds).
  { unfold table_dsets. rewrite S4. cbn [last].
    rewrite (shaped_true _ _ S4), (shaped_true _ _ S5), (shaped_true _ _ S6), (shaped_true _ _ S1), (shaped_true _ _ S2),
      (shaped_true _ _ S3), (shaped_true _ _ S7), (shaped_true _ _ S8). eexists. reflexivity. }
  destruct TD as [ds ->]. destruct loc; eexists; reflexivity.
Qed.

(** With interactions, provided the read of an extent that is not there
    (nuSQuIDS.cpp:1945) happens to give something else than the number of
    nodes, or there is no padding: targets and tables come back too. *)
Theorem c54_tables_partial g ov loc grp f o o0 f' :
  complete maxdim o -> codec o -> can_take o0 o -> (101100 <= nver)%Z -> apart loc grp ->
  (2 <= ne o)%nat -> o_inter o = true -> o_tabled o = true -> targets (o_tab o) <> [] ->
  sized_for (length (targets (o_tab o))) (o_nrhos o) (o_flav o) (ne o) (rounded (ne o)) (o_tab o) -> well (o_tab o) ->
  (g = ne o -> rounded (ne o) = ne o) ->
  has (norm grp) (base ov f) = false -> has (xs_path (norm grp) loc) (base ov f) = false ->
  wr (Some g) ov true loc grp f o = Ok f' ->
  exists o', rd loc grp f' o0 = Ok o' /\ restored track_x o o' /\ o_basis o' = o_basis o0 /\
    o_tabled o' = true /\ restored_tables (ne o) (rounded (ne o)) (o_tab o) (o_tab o').
Proof.
  intros Hc Hcod Take Hv Ap Hne Hi Htab Htg Hsz Hwell Hg Hp Hx W.
  destruct (write_group _ _ _ _ _ _ _ _ Ap W) as (b & t & Hb & Htr & L).
  destruct (read_group o o0 b t Hc Hcod Take ltac:(lia) Hb Htr) as (o' & R & Res & Bas & _ & _ & _ & Nr).
  destruct (Nr (or_intror Hne)) as [Nr' _].
  destruct Hc as (Hb0 & Ht0 & Fb & Ft & Fs & Fe & Hf & H99 & Hns & _ & Hnr).
  set (s := o_tab o) in *. set (k := length (targets s)) in *. set (n := ne o) in *. set (w := rounded n) in *.
  destruct Hsz as (S1 & S2 & S3 & S4 & S5 & S6 & S7 & S8).
  destruct Hwell as (F1 & F2 & F3 & F4 & F5 & F6 & F7 & F8).
  (* what was written *)
  set (ds := [ ("targets", DInt (targets s));
           ("sigmacc", DDbl [k; o_nrhos o; o_flav o; n] (whole_or_rows (Nat.eqb w n) (k * o_nrhos o * o_flav o) n w (a_data (sigma_CC s))));
           ("sigmanc", DDbl [k; o_nrhos o; o_flav o; n] (whole_or_rows (Nat.eqb w n) (k * o_nrhos o * o_flav o) n w (a_data (sigma_NC s))));
           ("sigmagr", DDbl [n] (whole_or_rows (Nat.eqb w n) 1 n w (a_data (sigma_GR s))));
           ("dNdEcc", DDbl [k; o_nrhos o; o_flav o; n; n] (whole_or_rows (Nat.eqb g n) (k * o_nrhos o * o_flav o * n) n w (a_data (dNdE_CC s))));
           ("dNdEnc", DDbl [k; o_nrhos o; o_flav o; n; n] (whole_or_rows (Nat.eqb g n) (k * o_nrhos o * o_flav o * n) n w (a_data (dNdE_NC s))));
           ("dNdEgr", DDbl [n; n] (whole_or_rows (Nat.eqb g n) n n w (a_data (dNdE_GR s))));
           ("dNdEtauall", DDbl [o_nrhos o; n; n] (whole_or_rows (Nat.eqb w n) (o_nrhos o * n) n w (a_data (tau_all s))));
           ("dNdEtaulep", DDbl [o_nrhos o; n; n] (whole_or_rows (Nat.eqb w n) (o_nrhos o * n) n w (a_data (tau_lep s)))) ]%string%nat).
  assert (TD : table_dsets (Some g) o s = Ok ds).
  { unfold table_dsets. rewrite S4. cbn [last]. fold k n.
    rewrite (shaped_true _ _ S4), (shaped_true _ _ S5), (shaped_true _ _ S6), (shaped_true _ _ S1), (shaped_true _ _ S2),
      (shaped_true _ _ S3), (shaped_true _ _ S7), (shaped_true _ _ S8). reflexivity. }
  assert (LX : lookup (xs_path (norm grp) loc) f' = Some (add_dsets empty_group ds)).
  { unfold write_state in W. rewrite Hb, Htr, Fb, Ft, Fs, Fe in W. cbn [andb negb] in W.
 rewrite Hp in W.
    unfold put in W. rewrite lookup_put_other in W by (apply xs_apart; exact Ap).
    unfold has in Hx. destruct (lookup (xs_path (norm grp) loc) (base ov f)); [discriminate|].
    rewrite Hi, Htab in W. cbn [andb obind empty_group g_data lookup] in W. fold s in W. rewrite TD in W. cbn [obind] in W.
    destruct loc; injection W as <-; apply lookup_put_same. }
  unfold read_state. rewrite L, R. cbn [obind].
  destruct (r_switches _ _ _ Res) as [E _]. rewrite E, Hi, LX.
  assert (Ne : ne o' = n) by (unfold ne; rewrite (r_E _ _ _ Res); reflexivity).
  assert (Nr2 : o_nrhos o' = o_nrhos o) by (rewrite Nr', Hnr; reflexivity).
  assert (Hwn : (n <= w)%nat) by apply rounded_ge.
  assert (Hw0 : (0 < w)%nat) by lia.
  assert (Hw1 : Nat.eqb w n = true -> w = n) by apply Nat.eqb_eq.
  assert (Hg1 : Nat.eqb g n = true -> w = n) by (intro X; apply Hg; apply Nat.eqb_eq; exact X).
  assert (L4 : length (a_data (sigma_CC s)) = (k * o_nrhos o * o_flav o * w)%nat) by (apply (filled_rows _ _ _ _ F4 S4); cbn; lia).
  assert (L5 : length (a_data (sigma_NC s)) = (k * o_nrhos o * o_flav o * w)%nat) by (apply (filled_rows _ _ _ _ F5 S5); cbn; lia).
  assert (L6 : length (a_data (sigma_GR s)) = (1 * w)%nat) by (apply (filled_rows _ _ _ _ F6 S6); cbn; lia).
  assert (L1' : length (a_data (dNdE_CC s)) = (k * o_nrhos o * o_flav o * n * w)%nat) by (apply (filled_rows _ _ _ _ F1 S1); cbn; lia).
  assert (L2 : length (a_data (dNdE_NC s)) = (k * o_nrhos o * o_flav o * n * w)%nat) by (apply (filled_rows _ _ _ _ F2 S2); cbn; lia).
  assert (L3 : length (a_data (dNdE_GR s)) = (n * w)%nat) by (apply (filled_rows _ _ _ _ F3 S3); cbn; lia).
  assert (L7 : length (a_data (tau_all s)) = (o_nrhos o * n * w)%nat) by (apply (filled_rows _ _ _ _ F7 S7); cbn; lia).
  assert (L8 : length (a_data (tau_lep s)) = (o_nrhos o * n * w)%nat) by (apply (filled_rows _ _ _ _ F8 S8); cbn; lia).
  destruct (table_back pad [k; o_nrhos o; o_flav o; w] (Nat.eqb w n) _ n w _ Hwn Hw1 L4) as (a4 & R4 & Q4 & Z4 & V4).
  destruct (table_back pad [k; o_nrhos o; o_flav o; w] (Nat.eqb w n) _ n w _ Hwn Hw1 L5) as (a5 & R5 & Q5 & Z5 & V5).
  destruct (table_back pad [w] (Nat.eqb w n) _ n w _ Hwn Hw1 L6) as (a6 & R6 & Q6 & Z6 & V6).
  destruct (table_back pad [k; o_nrhos o; o_flav o; n; w] (Nat.eqb g n) _ n w _ Hwn Hg1 L1') as (a1 & R1 & Q1 & Z1 & V1).
  destruct (table_back pad [k; o_nrhos o; o_flav o; n; w] (Nat.eqb g n) _ n w _ Hwn Hg1 L2) as (a2 & R2 & Q2 & Z2 & V2).
  destruct (table_back pad [n; w] (Nat.eqb g n) _ n w _ Hwn Hg1 L3) as (a3 & R3 & Q3 & Z3 & V3).
  destruct (table_back pad [o_nrhos o; n; w] (Nat.eqb w n) _ n w _ Hwn Hw1 L7) as (a7 & R7 & Q7 & Z7 & V7).
  destruct (table_back pad [o_nrhos o; n; w] (Nat.eqb w n) _ n w _ Hwn Hw1 L8) as (a8 & R8 & Q8 & Z8 & V8).
  assert (RT : read_tables pad (add_dsets empty_group ds : group PB PT) nver o' = Ok (with_tables o' (Istruct (targets s) a1 a2 a3 a4 a5 a6 a7 a8) n)).
  { unfold read_tables. rewrite (proj2 (Z.ltb_ge _ _) Hv).
    change (lookup "targets" (g_data (add_dsets (empty_group : group PB PT) ds))) with (Some (DInt (targets s))).
    cbv iota beta. destruct (targets s) as [|t0 ts] eqn:Et; [contradiction Htg; reflexivity|].
    change (length (t0 :: ts)) with k. rewrite Nr2, (r_flav _ _ _ Res), Ne. fold w. cbv zeta.
    unfold get_dset, add_dsets, empty_group, ds. cbn [g_data app lookup String.eqb Ascii.eqb Bool.eqb need snd fst].
    rewrite R4, R5, R6, R1, R2, R3, R7, R8. reflexivity. }
  rewrite RT. eexists. split; [reflexivity|]. split; [|split; [|split]].
  - destruct Res. constructor; cbn; assumption.
  - exact Bas.
  - reflexivity.
  - cbn [with_tables o_tab]. unfold restored_tables. cbn [targets dNdE_CC dNdE_NC dNdE_GR sigma_CC sigma_NC sigma_GR tau_all tau_lep].
    refine (conj eq_refl _).
    refine (conj (same_rows_intro _ _ _ _ _ Hw0 (eq_trans Q1 (eq_sym S1)) L1' Z1 V1) _).
    refine (conj (same_rows_intro _ _ _ _ _ Hw0 (eq_trans Q2 (eq_sym S2)) L2 Z2 V2) _).
    refine (conj (same_rows_intro _ _ _ _ _ Hw0 (eq_trans Q3 (eq_sym S3)) L3 Z3 V3) _).
    refine (conj (same_rows_intro _ _ _ _ _ Hw0 (eq_trans Q4 (eq_sym S4)) L4 Z4 V4) _).
    refine (conj (same_rows_intro _ _ _ _ _ Hw0 (eq_trans Q5 (eq_sym S5)) L5 Z5 V5) _).
    refine (conj (same_rows_intro _ _ _ _ _ Hw0 (eq_trans Q6 (eq_sym S6)) L6 Z6 V6) _).
    refine (conj (same_rows_intro _ _ _ _ _ Hw0 (eq_trans Q7 (eq_sym S7)) L7 Z7 V7) _).
    exact (same_rows_intro _ _ _ _ _ Hw0 (eq_trans Q8 (eq_sym S8)) L8 Z8 V8).
Qed.

Lemma written_places oob ov save loc grp f o f' q : wr oob ov save loc grp f o = Ok f' ->
  q <> norm grp -> q <> xs_path (norm grp) loc -> lookup q f' = lookup q (base ov f).
Proof.
  intros W Q1 Q2. unfold write_state in W. destruct (o_body o) as [b|]; [|discriminate].
  destruct (o_track o) as [t|]; [|discriminate]. destruct (negb _); [discriminate|].
  destruct (has _ _); [discriminate|]. fold (group_of o b t) in W.
  set (f0 := base ov f) in *. set (f1 := put (norm grp) (group_of o b t) f0) in *.
  assert (L1 : lookup q f1 = lookup q f0) by (apply lookup_put_other; exact Q1).
  assert (P1 : forall x, lookup q (put (xs_path (norm grp) loc) x f1) = lookup q f0).
  { intro x. unfold put at 1. rewrite lookup_put_other by exact Q2. exact L1. }
  destruct (lookup (xs_path (norm grp) loc) f1) as [x|]; destruct loc as [|c loc]; try discriminate W;
  (destruct (o_inter o && _)%bool; [|injection W as <-; first [exact L1|apply P1]];
   destruct (if o_tabled o then Ok (o_tab o) else make_tables o) as [s| |]; cbn [obind] in W; try discriminate W;
   destruct (lookup "targets" _); [discriminate W|];
   destruct (table_dsets oob o s) as [ds| |]; cbn [obind] in W; try discriminate W;
   injection W as <-; apply P1).
Qed.

(** A write adds one group and touches, besides it, only the place of the
    tables; a state stored elsewhere reads as before. *)
Theorem c54_other_groups oob save loc grp f o f' loc' grp' o0 : wr oob false save loc grp f o = Ok f' ->
  norm grp' <> norm grp -> norm grp' <> xs_path (norm grp) loc ->
  xs_path (norm grp') loc' <> norm grp -> xs_path (norm grp') loc' <> xs_path (norm grp) loc ->
  rd loc' grp' f' o0 = rd loc' grp' f o0.
Proof.
  intros W N1 N2 N3 N4. unfold read_state.
  rewrite (written_places _ _ _ _ _ _ _ _ _ W N1 N2), (written_places _ _ _ _ _ _ _ _ _ W N3 N4). reflexivity.
Qed.

(** Overwriting leaves nothing of the old file: it does not matter what was in it, and only the state written and its tables
    are there afterwards. *)
Theorem c54_overwrite oob save loc grp f o : wr oob true save loc grp f o = wr oob true save loc grp [] o /\
  forall f' q, wr oob true save loc grp f o = Ok f' -> lookup q f' <> None -> q = norm grp \/ q = xs_path (norm grp) loc.
Proof.
  split; [reflexivity|]. intros f' q W H.
  destruct (string_dec q (norm grp)) as [|N1]; [auto|]. destruct (string_dec q (xs_path (norm grp) loc)) as [|N2]; [auto|].
  exfalso. apply H. rewrite (written_places _ _ _ _ _ _ _ _ _ W N1 N2). reflexivity.
Qed.

(** ** What fails *)

(** Writing the tables of any object with interactions reads an extent that
    dNdE_GR does not have: undefined behaviour. *)
Theorem c54_tables_refuted ov loc grp f o : complete maxdim o -> o_inter o = true -> o_tabled o = true ->
  sized_for (length (targets (o_tab o))) (o_nrhos o) (o_flav o) (ne o) (rounded (ne o)) (o_tab o) ->
  has (norm grp) (base ov f) = false -> has (xs_path (norm grp) loc) (base ov f) = false -> apart loc grp ->
  wr None ov true loc grp f o = UB.
Proof.
  intros (Hb & Ht & Fb & Ft & Fs & Fe & _) Hi Htab (S1 & S2 & S3 & S4 & S5 & S6 & S7 & S8) Hp Hx Ap. unfold write_state.
  destruct (o_body o) as [b|]; [|contradiction]. destruct (o_track o) as [t|]; [|contradiction].
  rewrite Fb, Ft, Fs, Fe. cbn [andb negb]. rewrite Hp.
  unfold put. rewrite lookup_put_other by (apply xs_apart; exact Ap).
  unfold has in Hx. destruct (lookup (xs_path (norm grp) loc) (base ov f)); [discriminate|].
  rewrite Hi, Htab. cbn [andb obind empty_group g_data lookup].
  assert (TD : table_dsets None o (o_tab o) = UB).
  { unfold table_dsets. rewrite S4. cbn [last].
    rewrite (shaped_true _ _ S4), (shaped_true _ _ S5), (shaped_true _ _ S6), (shaped_true _ _ S1), (shaped_true _ _ S2),
      (shaped_true _ _ S3), (shaped_true _ _ S7), (shaped_true _ _ S8). reflexivity. }
  rewrite TD. destruct loc; reflexivity.
Qed.

(** A state of both types at one energy is written but cannot be read. *)
Theorem c54_one_energy_both_refuted oob ov save loc grp f o o0 f' :
  complete maxdim o -> codec o -> (100000 < nver)%Z -> apart loc grp -> ne o = 1%nat -> o_nt o = Both ->
  o_ini o0 = false -> wr oob ov save loc grp f o = Ok f' -> rd loc grp f' o0 = Throw RuntimeError.
Proof.
  intros Hc Hcod Hv Ap L Nt Ni W. destruct (write_group _ _ _ _ _ _ _ _ Ap W) as (b & t & Hb & Htr & Lk).
  unfold read_state. rewrite Lk. unfold read_common. rewrite (header_back o o0 b t Hcod Hv Hb Htr). cbn [obind].
  unfold initialise. cbn [headed o_E o_ini]. destruct (o_E o) as [|e1 [|e2 es]] eqn:EE; unfold ne in L; rewrite EE in L; cbn [length] in L; try discriminate.
  rewrite Ni. unfold init_single. cbn [o_nt headed]. rewrite Nt. reflexivity.
Qed.

(** A state with interactions written without its tables cannot be read by
    ReadStateHDF5. *)
Theorem c54_unsaved_tables_refuted oob ov loc grp f o o0 f' :
  complete maxdim o -> codec o -> can_take o0 o -> (101100 <= nver)%Z -> apart loc grp -> o_inter o = true ->
  has (xs_path (norm grp) loc) (base ov f) = false ->
  wr oob ov false loc grp f o = Ok f' -> rd loc grp f' o0 = Throw RuntimeError.
Proof.
  intros Hc Hcod Take Hv Ap Hi Hx W. pose proof W as W0.
  destruct (write_group _ _ _ _ _ _ _ _ Ap W) as (b & t & Hb & Htr & L).
  destruct (read_group o o0 b t Hc Hcod Take ltac:(lia) Hb Htr) as (o' & R & Res & _).
  destruct (r_switches _ _ _ Res) as [E _].
  unfold read_state. rewrite L, R. cbn [obind]. rewrite E, Hi.
  assert (LX : lookup (xs_path (norm grp) loc) f' = Some empty_group).
  { unfold write_state in W. rewrite Hb, Htr in W. destruct (negb _); [discriminate|]. destruct (has (norm grp) (base ov f)); [discriminate|].
    unfold put in W. rewrite lookup_put_other in W by (apply xs_apart; exact Ap).
    unfold has in Hx. destruct (lookup (xs_path (norm grp) loc) (base ov f)); [discriminate|].
    rewrite Hi in W. cbn [andb] in W. destruct loc; injection W as <-; apply lookup_put_same. }
  rewrite LX. unfold read_tables. rewrite (proj2 (Z.ltb_ge _ _) Hv). reflexivity.
Qed.

(** Reading a single-energy state into an object already initialised for fewer
    flavours writes past the end of its density matrix. *)
Theorem c54_reused_object_refuted oob ov save loc grp f o o0 f' :
  complete maxdim o -> codec o -> (100000 < nver)%Z -> apart loc grp -> ne o = 1%nat ->
  o_ini o0 = true -> (o_nsun o0 < o_flav o)%nat -> wr oob ov save loc grp f o = Ok f' -> rd loc grp f' o0 = UB.
Proof.
  intros Hc Hcod Hv Ap L Ni Small W. destruct (write_group _ _ _ _ _ _ _ _ Ap W) as (b & t & Hb & Htr & Lk).
  unfold read_state. rewrite Lk. unfold read_common. rewrite (header_back o o0 b t Hcod Hv Hb Htr). cbn [obind].
  unfold initialise. cbn [headed o_E o_ini].
  destruct (o_E o) as [|e1 [|e2 es]] eqn:EE; pose proof L as L'; unfold ne in L'; rewrite EE in L'; cbn [length] in L'; try discriminate.
  rewrite Ni. cbn [obind]. unfold read_rest. cbn [set_e headed o_flav o_angle o_phase o_dm o_track o_nx o_nsun o_nrhos o_nt].
  assert (H99 : (o_flav o <= 99)%nat) by apply Hc.
  set (g := group_of o b t).
  destruct (read_pairs_ok g (o_angle o) (o_phase o) (pairs (o_flav o)) (o_angle o0) (o_phase o0)) as (an & ph & RP & _).
  { intros i j H. apply in_pairs in H. unfold get_dbl, g. rewrite angle_attr by assumption. reflexivity. }
  { intros i j H. apply in_pairs in H. unfold get_dbl, g. rewrite phase_attr by assumption. reflexivity. }
  rewrite RP. cbn [obind].
  destruct (read_dms_ok g (o_dm o) (seq 1 (o_flav o - 1)) (o_dm o0)) as (dms & RD & _).
  { intros i H. apply in_seq in H. unfold get_dbl, g. rewrite dm_attr by lia. reflexivity. }
  assert (D2 : get_dset g "neustate" = Some ([ne o; o_flav o * o_flav o]%nat, state_data o (nu_index (o_nt o)))) by reflexivity.
  assert (D3 : get_dset g "aneustate" = Some ([ne o; o_flav o * o_flav o]%nat, state_data o (anti_index (o_nt o)))) by reflexivity.
  rewrite RD. cbn [obind need]. rewrite D2, D3. cbn [need fst snd].
  assert (S : Nat.ltb (o_nsun o0 * o_nsun o0) (o_flav o * o_flav o) = true) by (apply Nat.ltb_lt; nia).
  rewrite S. rewrite orb_true_r. reflexivity.
Qed.

(** ** C72: rows of the work arrays *)

(** the promise of nuSQuIDS.cpp:878-879: if the array starts on a multiple of
    four doubles, so does every row *)
Definition rows_aligned (o : obj B T) : Prop := forall row, (row * o_row o mod 4 = 0)%nat.

(** 1033-1041: rows of the rounded length hold every node, waste at most three
    items, and are aligned *)
Theorem c72_rounding n : (n <= rounded n < n + 4)%nat /\ forall row, (row * rounded n mod 4 = 0)%nat.
Proof.
  split.
  - unfold rounded. pose proof (Nat.div_mod (n + 3) 4 ltac:(lia)). pose proof (Nat.mod_upper_bound (n + 3) 4 ltac:(lia)). lia.
  - intro row. destruct (rounded_mult n) as [q ->]. replace (row * (4 * q))%nat with (row * q * 4)%nat by lia. apply Nat.mod_mul. lia.
Qed.

(** objects of an atmospheric ensemble after the first *)
Theorem c72_internal_aligned oob ov save loc grp f o o0 f' s :
  complete maxdim o -> codec o -> can_take o0 o -> (100000 < nver)%Z -> apart loc grp -> o_inter o = true ->
  wr oob ov save loc grp f o = Ok f' -> exists o', rdi grp f' (Some s) o0 = Ok o' /\ rows_aligned o'.
Proof.
  intros Hc Hcod Ht Hv Ap Hi W.
  destruct (c54_internal_partial oob ov save loc grp f o o0 f' s Hc Hcod Ht Hv Ap W) as (o' & R & _ & _ & H).
  exists o'. split; [exact R|]. destruct (H Hi) as (_ & _ & E). intro row. rewrite E.
  destruct (rounded_mult (ne o)) as [q ->]. replace (row * (4 * q))%nat with (row * q * 4)%nat by lia. apply Nat.mod_mul. lia.
Qed.

(** after ReadStateHDF5 the rows are as long as the number of nodes *)
Theorem c72_read_aligned_partial xg nv (o o' : obj B T) : read_tables pad (xg : group PB PT) nv o = Ok o' ->
  (rows_aligned o' <-> (ne o mod 4 = 0)%nat).
Proof.
  intro H. assert (E : o_row o' = ne o).
  { unfold read_tables in H. destruct (Z.ltb nv 101100); [discriminate|].
    destruct (lookup "targets" (g_data xg)) as [[|[|t ts]]|]; try discriminate.
    repeat match type of H with
    | need ?x _ = _ => destruct x; cbn [need] in H; [|discriminate]
    | obind ?x _ = _ => destruct x; cbn [obind] in H; [|discriminate|discriminate]
    end. injection H as <-. reflexivity. }
  unfold rows_aligned. rewrite E. split.
  - intro A. specialize (A 1%nat). rewrite Nat.mul_1_l in A. exact A.
  - intros A row. rewrite Nat.mul_mod, A, Nat.mul_0_r by lia. reflexivity.
Qed.

(** ** Flavour content (C55) *)
Variable mat_of : nat -> (nat -> R) -> mat.
Variable order : list (nat * nat).
(** the matrix of an SU_vector depends on its n*n components *)
Definition components_only : Prop := forall n c c', (forall j, (j < n * n)%nat -> c j = c' j) -> meq n (mat_of n c) (mat_of n c').
Definition ordered (n : nat) : Prop := Forall (fun p => (fst p < snd p < n)%nat) order.

Lemma mixing_ext n th dl th' dl' l : Forall (fun p => (fst p < snd p < n)%nat) l ->
  (forall i j, (i < j < n)%nat -> th i j = th' i j /\ dl i j = dl' i j) -> mixing n th dl l = mixing n th' dl' l.
Proof.
  intros F H. induction F as [|[i j] l Hp F IH]; [reflexivity|]. cbn [fst snd] in Hp. cbn [mixing].
  destruct (H i j Hp) as [-> ->]. rewrite IH. reflexivity.
Qed.

Lemma msum_same m f g : (forall k, (k < m)%nat -> f k = g k) -> msum m f = msum m g.
Proof.
  induction m as [|m IH]; intro H; [reflexivity|]. cbn [msum]. rewrite IH, (H m) by (try lia; intros; apply H; lia). reflexivity.
Qed.

(** A restored object used in the same basis shows the same flavour and mass
    content at every node. *)
Theorem c54_content_partial (o o' : obj B T) : components_only -> ordered (o_flav o) -> o_nsun o = o_flav o ->
  restored track_x o o' -> o_basis o' = o_basis o ->
  forall k ei r, (ei < ne o)%nat -> (r < matrices (o_nt o))%nat ->
    flavor_at mat_of order o' k ei r = flavor_at mat_of order o k ei r /\
    mass_at mat_of o' k ei r = mass_at mat_of o k ei r.
Proof.
  intros Hm Ho Hns Res Bas k ei r He Hr. unfold flavor_at, mass_at.
  rewrite (r_nsun _ _ _ Res), Hns, Bas, (r_E _ _ _ Res), (r_t _ _ _ Res), (r_t0 _ _ _ Res), (r_nt _ _ _ Res).
  destruct (r_switches _ _ _ Res) as (_ & Os & _). rewrite Os.
  assert (D : dm2 (o_flav o) (o_dm o') = dm2 (o_flav o) (o_dm o)).
  { unfold dm2. apply msum_same. intros i Hi. rewrite (r_dm _ _ _ Res) by lia. reflexivity. }
  assert (H0 : h0 (o_flav o) (o_osc o) (o_dm o') (nth ei (o_E o) 0) = h0 (o_flav o) (o_osc o) (o_dm o) (nth ei (o_E o) 0)).
  { unfold h0. rewrite D. reflexivity. }
  rewrite H0.
  assert (P : b1_proj (o_flav o) (o_angle o') (o_phase o') order (o_nt o) r = b1_proj (o_flav o) (o_angle o) (o_phase o) order (o_nt o) r).
  { unfold b1_proj. rewrite (mixing_ext _ _ _ (o_angle o) (fixed_phases (o_nt o) r (o_phase o)) order Ho); [reflexivity|].
    intros i j H. split; [apply (r_angle _ _ _ Res); exact H|].
    unfold fixed_phases. destruct (o_nt o); [|f_equal|destruct (Nat.eqb r 1); [f_equal|]]; apply (r_phase _ _ _ Res); exact H. }
  rewrite P.
  assert (M : meq (o_flav o) (mat_of (o_flav o) (o_rho o' ei r)) (mat_of (o_flav o) (o_rho o ei r))).
  { apply Hm. intros c Hc. apply (r_rho _ _ _ Res); assumption. }
  split.
  - unfold eval_flavor. destruct (o_basis o); apply expect_meq; try exact M; apply meq_refl.
  - unfold eval_mass. destruct (o_basis o); apply expect_meq; try exact M; apply meq_refl.
Qed.
End FileTheorems.

(** ** Concrete cases *)
Definition ex_ser (x : nat) : nat := x.
Definition ex_de (x : nat) : outcome nat := Ok x.
Definition ex_x (t : nat) : R := INR t.
Definition ex_make (o : obj nat nat) : outcome (istruct R) := UB.

Definition ex_arr (sh : list nat) : arr R := Arr sh (map INR (seq 0 (fold_right Nat.mul 1%nat sh))).
(** two targets, [nr] matrices, three flavours, two energies *)
Definition ex_tab (nr : nat) : istruct R :=
  (Istruct [1; 2]%Z (ex_arr [2; nr; 3; 2; 4]) (ex_arr [2; nr; 3; 2; 4]) (ex_arr [2; 4]) (ex_arr [2; nr; 3; 4])
    (ex_arr [2; nr; 3; 4]) (ex_arr [4]) (ex_arr [nr; 2; 4]) (ex_arr [nr; 2; 4]))%nat.

Definition ex_obj (nt : nutype) (Es : list R) (bas : basis) (c : nat -> R) (inter : bool) (ini : bool) (n : nat) : obj nat nat :=
  Obj nt n Es n (length Es) (matrices nt) (fun _ _ j => c j) th_ex (fun _ _ => 0) ediff_ex
      inter true false false 1 0 (-6) (Some 3%nat) (Some 7%nat) bas inter (ex_tab (matrices nt)) 4 ini true true true true.

Lemma ex_complete nt Es bas c inter ini n : Es <> [] -> (3 <= n <= 6)%nat -> complete 6 (ex_obj nt Es bas c inter ini n).
Proof.
  intros H Hn. unfold complete. cbn. repeat split; try reflexivity; try discriminate; try lia.
  unfold ne. cbn. destruct Es; [contradiction|cbn; lia].
Qed.
Lemma ex_codec nt Es bas c inter ini n : codec ex_ser ex_ser ex_de ex_de (ex_obj nt Es bas c inter ini n).
Proof. split; intros x _; reflexivity. Qed.

Notation ex_wr := (write_state ex_ser ex_ser 100 101103 ex_make).
Notation ex_rd := (read_state ex_de ex_de ex_x 6 100 101103 0).

(** Four flavours at three energies, read by an object of five flavours and one
    energy from a file with other groups. *)
Example c54_example : forall f, has "/costh_0.100000" f = false -> has "/crosssections" f = false ->
  exists f' o', ex_wr None false true "crosssections" "costh_0.100000" f (ex_obj Both [1; 2; 4] BInter (fun j => INR j) false false 4) = Ok f' /\
    ex_rd "crosssections" "costh_0.100000" f' (ex_obj Neutrino [5] BInter (fun _ => 9) false true 5) = Ok o' /\
    o_rho o' 2 1 15%nat = 15 /\ o_off o' = -6 /\ o_angle o' 0%nat 1%nat = PI / 4.
Proof.
  intros f H1 H2. set (o := ex_obj Both [1; 2; 4] BInter (fun j => INR j) false false 4).
  assert (C : complete 6 o) by (apply ex_complete; [discriminate|lia]).
  assert (A : apart "crosssections" "costh_0.100000") by (right; discriminate).
  destruct (c54_written ex_ser ex_ser 6 100 101103 ex_make None false true "crosssections" "costh_0.100000" f o C eq_refl H1 H2 A) as [f' W].
  destruct (c54_state_partial ex_ser ex_ser ex_de ex_de ex_x 6 100 101103 0 ex_make None false true "crosssections" "costh_0.100000" f o
    (ex_obj Neutrino [5] BInter (fun _ => 9) false true 5) f' C (ex_codec _ _ _ _ _ _ _)) as (o' & Rd & Res & _); try assumption.
  { left. cbn. lia. } { lia. } { reflexivity. }
  exists f', o'. split; [exact W|]. split; [exact Rd|]. split; [|split].
  - rewrite (r_rho _ _ _ Res) by (cbn; lia). cbn. lra.
  - rewrite (r_off _ _ _ Res 7%nat eq_refl). cbn. unfold ex_x. cbn. lra.
  - rewrite (r_angle _ _ _ Res) by (cbn; lia). reflexivity.
Qed.

Lemma ex_sized nt bas c ini : sized_for (length (targets (ex_tab (matrices nt)))) (matrices nt) 3 2 4 (ex_tab (matrices nt)) /\
  well (ex_tab (matrices nt)) /\ ne (ex_obj nt [1; 2] bas c true ini 3) = 2%nat.
Proof.
  split; [repeat split|]. split; [|reflexivity].
  repeat split; unfold filled; cbn [ex_tab dNdE_CC dNdE_NC dNdE_GR sigma_CC sigma_NC sigma_GR tau_all tau_lep ex_arr a_data a_shape];
    rewrite map_length, seq_length; reflexivity.
Qed.

Example c54_tables_example : exists f' o',
  ex_wr (Some 0%nat) true true "" "/" [] (ex_obj Both [1; 2] BInter (fun j => INR j) true false 3) = Ok f' /\
  ex_rd "" "/" f' (ex_obj Neutrino [5] BInter (fun _ => 9) false true 5) = Ok o' /\
  nth (1 * 4 + 1) (a_data (dNdE_GR (o_tab o'))) 0 = 5.
Proof.
  set (o := ex_obj Both [1; 2] BInter (fun j => INR j) true false 3).
  assert (C : complete 6 o) by (apply ex_complete; [discriminate|lia]).
  destruct (ex_sized Both BInter (fun j => INR j) false) as (Sz & We & _).
  destruct (c54_tables_written ex_ser ex_ser 6 100 101103 ex_make 0 true true "" "/" [] o 4 C eq_refl Sz) as [f' W];
    try reflexivity; [left; reflexivity|].
  destruct (c54_tables_partial ex_ser ex_ser ex_de ex_de ex_x 6 100 101103 0 ex_make 0 true "" "/" [] o
    (ex_obj Neutrino [5] BInter (fun _ => 9) false true 5) f' C (ex_codec _ _ _ _ _ _ _)) as (o' & Rd & Res & _ & _ & Tb);
    try assumption; try reflexivity.
  { left. cbn. lia. } { lia. } { left. reflexivity. } { discriminate. } { discriminate. }
  exists f', o'. split; [exact W|]. split; [exact Rd|].
  destruct Tb as (_ & _ & _ & (_ & G) & _). destruct (G 2%nat) as (_ & G').
  { cbn. reflexivity. }
  pose proof (G' 1 1)%nat as G1. change (rounded (ne o)) with 4%nat in G1. rewrite G1 by (cbn; lia). cbn. lra.
Qed.

(** If the value found past the extents is the number of energies, padded tables
    are written as if they had no padding, and come back changed. *)
Theorem c54_scrambled_tables_refuted : exists (o o0 : obj nat nat) f' o',
  complete 6 o /\ sized_for (length (targets (o_tab o))) (o_nrhos o) (o_flav o) (ne o) (rounded (ne o)) (o_tab o) /\ well (o_tab o) /\
  ex_wr (Some (ne o)) true true "" "/" [] o = Ok f' /\ ex_rd "" "/" f' o0 = Ok o' /\
  nth (1 * 4 + 0) (a_data (dNdE_GR (o_tab o))) 0 = 4 /\ nth (1 * 4 + 0) (a_data (dNdE_GR (o_tab o'))) 0 = 2.
Proof.
  exists (ex_obj Neutrino [1; 2] BInter (fun j => INR j) true false 3), (ex_obj Neutrino [1; 2] BInter (fun _ => 9) false false 3).
  destruct (ex_sized Neutrino BInter (fun j => INR j) false) as (Sz & We & _).
  eexists. eexists. split; [apply ex_complete; [discriminate|lia]|]. split; [exact Sz|]. split; [exact We|].
  split; [vm_compute; reflexivity|]. split; [vm_compute; reflexivity|]. split; cbn [o_tab ex_obj nth a_data dNdE_GR Nat.mul Nat.add]; [cbn|]; lra.
Qed.

(** ** The basis is not stored *)
Definition represents (mat_of : nat -> (nat -> R) -> mat) : Prop :=
  forall n M, hermitian n M -> exists c, meq n (mat_of n c) M.

Lemma ini_hermitian n V P v m : frame n V P -> (m <= n)%nat ->
  hermitian n (msum m (fun j => mscale (v j) (P j))).
Proof.
  intros F. induction m as [|m IH]; intros L i j Hi Hj; unfold dagger; cbn [msum].
  - unfold mzero. apply conj_0.
  - unfold mplus, mscale. rewrite conj_plus, conj_mult, conj_rtc. f_equal; [apply (IH ltac:(lia) i j Hi Hj)|]. f_equal.
    rewrite (F m ltac:(lia) j i Hj Hi), (F m ltac:(lia) i j Hi Hj). exact (outer_hermitian n _ i j Hi Hj).
Qed.

(** An object whose state is kept in the mass basis (as after the
    constant-density shortcut) holds an electron neutrino; reading its file into
    an object in the interaction basis, the electron content is 0. *)
Theorem c54_basis_refuted mat_of : components_only mat_of -> represents mat_of ->
  exists (o o0 : obj nat nat) f' o', complete 6 o /\ o_inter o = false /\ o_basis o = BMass /\ o_basis o0 = BInter /\
  ex_wr None true true "" "/" [] o = Ok f' /\ ex_rd "" "/" f' o0 = Ok o' /\
  flavor_at mat_of order_ex o 0 0 0 = 1 /\ flavor_at mat_of order_ex o' 0 0 0 = 0.
Proof.
  intros Loc Rep. set (P := b1_proj 3 th_ex (fun _ _ => 0) order_ex Neutrino 0).
  destruct (Rep 3%nat (ini_state 3 BFlavor P v_ex)) as [c Mc].
  { apply (ini_hermitian 3 _ P v_ex 3 (frame_b1 3 th_ex (fun _ _ => 0) order_ex Neutrino 0)). lia. }
  set (o := ex_obj Neutrino [1; 2] BMass c false false 3).
  set (o0 := ex_obj Neutrino [1; 2] BInter (fun _ => 0) false false 3).
  assert (C : complete 6 o) by (apply ex_complete; [discriminate|lia]).
  assert (A : apart "" "/") by (left; reflexivity).
  destruct (c54_written ex_ser ex_ser 6 100 101103 ex_make None true true "" "/" [] o C eq_refl eq_refl eq_refl A) as [f' W].
  destruct (c54_state_partial ex_ser ex_ser ex_de ex_de ex_x 6 100 101103 0 ex_make None true true "" "/" [] o o0 f' C (ex_codec _ _ _ _ _ _ _)) as (o' & Rd & Res & Bas); try assumption.
  { left. cbn. lia. } { lia. } { reflexivity. }
  exists o, o0, f', o'. split; [exact C|]. do 3 (split; [reflexivity|]). split; [exact W|]. split; [exact Rd|].
  assert (E1 : flavor_at mat_of order_ex o 0 0 0 = 1).
  { unfold flavor_at. cbn [o o_nsun o_basis o_t o_t0 o_rho o_angle o_phase o_nt o_dm o_osc o_E ex_obj eval_flavor].
    fold P. rewrite (expect_meq 3 _ (P 0%nat) _ (ini_state 3 BFlavor P v_ex)); [|apply meq_refl|exact Mc].
    exact (c55_flavor_readback 3 th_ex (fun _ _ => 0) order_ex Neutrino 0 BMass mzero 0 v_ex 0 order_ex_ok ltac:(lia)). }
  split; [exact E1|].
  set (o1 := ex_obj Neutrino [1; 2] BInter c false false 3).
  destruct (c54_content_partial ex_x mat_of order_ex o1 o' Loc ltac:(repeat constructor; cbn; lia) eq_refl) with (k := 0%nat) (ei := 0%nat) (r := 0%nat) as [E _].
  { destruct Res. constructor; assumption. } { exact Bas. } { cbn. lia. } { cbn. lia. }
  rewrite E. unfold flavor_at. cbn [o1 o_nsun o_basis o_t o_t0 o_rho o_angle o_phase o_nt o_dm o_osc o_E ex_obj eval_flavor nth].
  fold P. rewrite (expect_meq 3 _ (evolve (h0 3 true ediff_ex 1) (1 - 0) (P 0%nat)) _ (ini_state 3 BFlavor P v_ex)); [|apply meq_refl|exact Mc].
  change (eval_flavor 3 BInter (h0 3 true ediff_ex 1) 1 0 P (ini_state 3 BFlavor P v_ex) 0 = 0). unfold P.
  rewrite c55_vacuum_probability by (try exact order_ex_ok; try lia; lra). cbn [rsum v_ex].
  change (fun a : nat => splitting ediff_ex 1 a) with (splitting ediff_ex 1).
  rewrite osc_prob_ex by (cbn; ring). replace (PI * (1 - 0)) with PI by ring. rewrite cos_PI. field.
Qed.

(** a layout of the components for which both hold *)
Definition mat_ex (n : nat) (c : nat -> R) : mat := fun a b =>
  if Nat.ltb a b then mkC (c (a * n + b)%nat) (c (b * n + a)%nat)
  else if Nat.ltb b a then mkC (c (b * n + a)%nat) (- c (a * n + b)%nat)
  else mkC (c (a * n + a)%nat) 0.
Lemma index_unique n a b a' b' : (b < n)%nat -> (b' < n)%nat -> (a * n + b = a' * n + b')%nat -> a = a' /\ b = b'.
Proof. intros Hb Hb' E. assert (a = a') by nia. subst. split; [reflexivity|lia]. Qed.
Example c54_basis_hypotheses : components_only mat_ex /\ represents mat_ex.
Proof.
  split.
  - intros n c c' H a b Ha Hb. unfold mat_ex. assert (forall x y, (x < n)%nat -> (y < n)%nat -> c (x * n + y)%nat = c' (x * n + y)%nat) as K.
    { intros x y Hx Hy. apply H. nia. }
    rewrite !K by assumption. reflexivity.
  - intros n M H.
    exists (fun j => let a := (j / n)%nat in let b := (j mod n)%nat in if Nat.leb a b then re (M a b) else im (M b a)).
    intros a b Ha Hb. assert (K : forall x y, (x < n)%nat -> (y < n)%nat -> ((x * n + y) / n = x /\ (x * n + y) mod n = y)%nat).
    { intros x y Hx Hy. rewrite Nat.add_comm. split.
      - rewrite Nat.div_add by lia. rewrite Nat.div_small by lia. reflexivity.
      - rewrite Nat.mod_add by lia. apply Nat.mod_small. lia. }
    unfold mat_ex. destruct (K a b Ha Hb) as [-> ->]. destruct (K b a Hb Ha) as [-> ->]. destruct (K a a Ha Ha) as [-> ->].
    pose proof (H a b Ha Hb) as Hab. unfold dagger in Hab.
    destruct (Nat.ltb_spec a b).
    + rewrite (proj2 (Nat.leb_le a b)), (proj2 (Nat.leb_gt b a)) by lia. destruct (M a b); reflexivity.
    + destruct (Nat.ltb_spec b a).
      * rewrite (proj2 (Nat.leb_le b a)), (proj2 (Nat.leb_gt a b)) by lia. rewrite <- Hab. reflexivity.
      * assert (a = b) by lia. subst b. rewrite Nat.leb_refl. destruct (M a a) as [x y]. cbn in Hab. injection Hab as E. cbn. f_equal. lra.
Qed.

(** Labels of more than a hundred flavours are not unique. *)
Example c54_labels_collide : angle_label 0 122 = angle_label 10 22.
Proof. reflexivity. Qed.

Example c54_refutations_nonvacuous :
  (exists f', ex_wr None true true "" "/" [] (ex_obj Both [1] BInter (fun j => INR j) false false 3) = Ok f' /\
     ex_rd "" "/" f' (ex_obj Both [1] BInter (fun j => INR j) false false 3) = Throw RuntimeError) /\
  (exists f', ex_wr None true false "" "/" [] (ex_obj Neutrino [1; 2] BInter (fun j => INR j) true false 3) = Ok f' /\
     ex_rd "" "/" f' (ex_obj Both [1] BInter (fun j => INR j) false false 3) = Throw RuntimeError) /\
  (exists f', ex_wr None true false "" "/" [] (ex_obj Neutrino [1] BInter (fun j => INR j) false false 4) = Ok f' /\
     ex_rd "" "/" f' (ex_obj Neutrino [1] BInter (fun j => INR j) false true 3) = UB) /\
  ex_wr None true true "" "/" [] (ex_obj Neutrino [1; 2] BInter (fun j => INR j) true false 3) = UB.
Proof.
  refine (conj _ (conj _ (conj _ _))); [..|vm_compute; reflexivity]; eexists; (split; [vm_compute; reflexivity|vm_compute; reflexivity]).
Qed.

(** rows of two items after reading *)
Theorem c72_read_aligned_refuted : exists (o o0 : obj nat nat) f' o', complete 6 o /\
  ex_wr (Some 0%nat) true true "" "/" [] o = Ok f' /\ ex_rd "" "/" f' o0 = Ok o' /\ ~ rows_aligned o'.
Proof.
  exists (ex_obj Neutrino [1; 2] BInter (fun j => INR j) true false 3), (ex_obj Neutrino [1; 2] BInter (fun _ => 9) false false 3).
  eexists. eexists. split; [apply ex_complete; [discriminate|lia]|]. split; [vm_compute; reflexivity|]. split; [vm_compute; reflexivity|].
  intro H. specialize (H 1%nat). cbn in H. discriminate.
Qed.

Example c72_example : exists f' o',
  ex_wr None true false "" "/" [] (ex_obj Neutrino [1; 2] BInter (fun j => INR j) true false 3) = Ok f' /\
  read_internal ex_de ex_de ex_x 6 100 101103 0 "/" f' (Some (ex_tab 1)) (ex_obj Both [1] BInter (fun j => INR j) false false 3) = Ok o' /\
  o_row o' = 4%nat.
Proof.
  set (o := ex_obj Neutrino [1; 2] BInter (fun j => INR j) true false 3).
  assert (C : complete 6 o) by (apply ex_complete; [discriminate|lia]).
  assert (W : exists f', ex_wr None true false "" "/" [] o = Ok f') by (eexists; reflexivity).
  destruct W as [f' W].
  destruct (c54_internal_partial ex_ser ex_ser ex_de ex_de ex_x 6 100 101103 0 ex_make None true false "" "/" [] o
    (ex_obj Both [1] BInter (fun j => INR j) false false 3) f' (ex_tab 1) C (ex_codec _ _ _ _ _ _ _)) as (o' & Rd & _ & _ & H).
  { left. cbn. lia. } { lia. } { left. reflexivity. } { exact W. }
  exists f', o'. split; [exact W|]. split; [exact Rd|]. exact (proj2 (proj2 (H eq_refl))).
Qed.

Print Assumptions c54_state_partial.
Print Assumptions c54_written.
Print Assumptions c54_tables_written.
Print Assumptions c54_internal_partial.
Print Assumptions c54_tables_partial.
Print Assumptions c54_other_groups.
Print Assumptions c54_overwrite.
Print Assumptions c54_tables_refuted.
Print Assumptions c54_one_energy_both_refuted.
Print Assumptions c54_unsaved_tables_refuted.
Print Assumptions c54_reused_object_refuted.
Print Assumptions c72_rounding.
Print Assumptions c72_internal_aligned.
Print Assumptions c72_read_aligned_partial.
Print Assumptions c54_content_partial.
Print Assumptions c54_scrambled_tables_refuted.
Print Assumptions c54_basis_refuted.
Print Assumptions c72_read_aligned_refuted.
