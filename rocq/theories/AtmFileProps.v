(** C59: ensembles written to files and read back. *)
From Coq Require Import Reals ZArith NArith Ascii String List Arith Bool Lia Lra.
From Verif Require Import Err StructModel CMatrix FlavorModel FlavorEqnProps FileModel FileProofs FileProps AtmFileModel AtmFileProofs.
Import ListNotations.
Open Scope R_scope.

(** Nodes share a name exactly if they have the same sign and the same value to six decimals; nodes more than a millionth
    apart never do. *)
Theorem c59_names x y :
  (1 / 1000000 < Rabs (x - y) -> node_name x <> node_name y) /\
  (node_name x = node_name y <-> (x < 0 <-> y < 0) /\ nearest (Rabs x * 1000000) = nearest (Rabs y * 1000000)).
Proof.
  split; [apply node_name_far|]. rewrite node_name_same. unfold negative, micro.
  assert (P : forall z, (0 <= nearest (Rabs z * 1000000))%Z).
  { intro z. apply nearest_pos. pose proof (Rabs_pos z). lra. }
  split.
  - intros [S M]. split.
    + destruct (Rlt_dec x 0), (Rlt_dec y 0); try discriminate S; tauto.
    + apply (f_equal Z.of_N) in M. rewrite !Z2N.id in M by apply P. exact M.
  - intros [S M]. rewrite M. split; [|reflexivity].
    destruct (Rlt_dec x 0), (Rlt_dec y 0); tauto.
Qed.

Section Theorems.
Context {B T PB PT : Type}.
Variable ser_body : B -> PB.
Variable ser_track : T -> PT.
Variable de_body : PB -> outcome B.
Variable de_track : PT -> outcome T.
Variable track_x : T -> R.
Variable maxdim : nat.
Variables sver nver : Z.
Variable pad : R.
Variable make_tables : obj B T -> outcome (istruct R).
Variable fresh : obj B T.
Variable is_earth : B -> bool.

Notation wa := (write_atm ser_body ser_track sver nver make_tables).
Notation ra := (read_atm de_body de_track track_x maxdim sver nver pad fresh is_earth).
Notation wr := (write_state ser_body ser_track sver nver make_tables).

(** an ensemble that has a state, with one complete node per angle *)
Record whole (a : fatm B T) : Prop := {
  w_ini : fa_ini a = Some true;
  w_made : fa_made a = true;
  w_len : length (fa_nodes a) = length (fa_cos a);
  w_some : fa_nodes a <> [];
  w_nodes : Forall (complete maxdim) (fa_nodes a) }.

(** Nodes with different names are all written if the first one has no interactions or tables of its own
    extents; the tables of the others do not matter. *)
Theorem c59_written oob a : whole a -> NoDup (map node_name (fa_cos a)) ->
  (forall o, nth_error (fa_nodes a) 0 = Some o -> o_inter o = false \/
     exists g w, oob = Some g /\ o_tabled o = true /\
       sized_for (length (targets (o_tab o))) (o_nrhos o) (o_flav o) (ne o) w (o_tab o)) ->
  exists f, wa oob true a = Ok f.
Proof.
  intros [I M L N C] D H. unfold write_atm. rewrite I, M. cbn [negb].
  destruct (fa_nodes a) as [|o l] eqn:En; [contradiction|]. destruct (fa_cos a) as [|c cos] eqn:Ec; [discriminate L|].
  inversion C as [|? ? Co Cl]; subst. cbn [map] in D. apply NoDup_cons_iff in D. destruct D as [D1 D2].
  cbn [write_nodes nth_error Nat.eqb].
  assert (W0 : exists f1, wr oob false true "crosssections" (node_name c) (put "/"%string (root_group a) []) o = Ok f1).
  { destruct (H o eq_refl) as [Hi|(g & w & -> & Ht & Sz)].
    - apply (c54_written ser_body ser_track maxdim sver nver make_tables oob false true "crosssections" (node_name c) _ o Co Hi).
      + reflexivity.
      + reflexivity.
      + apply node_name_apart.
    - apply (c54_tables_written ser_body ser_track maxdim sver nver make_tables g false true "crosssections"%string (node_name c) _ o w Co Ht Sz).
      + reflexivity.
      + reflexivity.
      + apply node_name_apart. }
  destruct W0 as [f1 W1]. rewrite W1. cbn [obind].
  apply (loop_succeeds ser_body ser_track maxdim sver nver make_tables).
  - lia.
  - cbn in L |- *. lia.
  - exact Cl.
  - exact D2.
  - intros c' Hin. cbn [skipn] in Hin.
    assert (E : lookup (node_name c') f1 = lookup (node_name c') (put "/"%string (root_group a) [])).
    { apply (written_places _ _ _ _ _ _ _ _ _ _ _ _ _ (node_name c') W1).
      - intro E. apply D1. rewrite node_name_norm in E. rewrite <- E. apply in_map. exact Hin.
      - intro E. exact (node_name_tables c' _ (eq_sym E)). }
    unfold has. rewrite E. unfold put. rewrite lookup_put_other by apply node_name_root. reflexivity.
Qed.

(** Angles more than a millionth apart have different names. *)
Lemma far_apart cos : (forall i j x y, (i < j)%nat -> nth_error cos i = Some x -> nth_error cos j = Some y ->
  1 / 1000000 < Rabs (x - y)) -> NoDup (map node_name cos).
Proof.
  induction cos as [|c cos IH]; intro H; cbn [map]; constructor.
  - intro Hin. apply in_map_iff in Hin. destruct Hin as (y & E & Hy). apply In_nth_error in Hy. destruct Hy as [k Hk].
    apply (node_name_far c y); [|auto]. exact (H 0%nat (S k) c y ltac:(lia) eq_refl Hk).
  - apply IH. intros i j x y L A E. apply (H (S i) (S j)); auto. lia.
Qed.

Theorem c59_spaced oob a : whole a -> Forall (fun o => o_inter o = false) (fa_nodes a) ->
  (forall i j x y, (i < j)%nat -> nth_error (fa_cos a) i = Some x -> nth_error (fa_cos a) j = Some y ->
     1 / 1000000 < Rabs (x - y)) ->
  exists f, wa oob true a = Ok f.
Proof.
  intros W Hi H. apply c59_written; [exact W|apply far_apart; exact H|].
  intros o E. left. rewrite Forall_forall in Hi. apply Hi. apply nth_error_In with 0%nat. exact E.
Qed.

Lemma root_back oob a f : wa oob true a = Ok f -> lookup "/"%string f = Some (root_group a).
Proof.
  unfold write_atm. destruct (fa_ini a) as [[|]|]; try discriminate. destruct (fa_made a); try discriminate. cbn [negb].
  intro W. rewrite (loop_frame _ _ _ _ _ _ _ _ _ _ _ W); [apply lookup_put_same| |discriminate].
  intros c E. exact (node_name_root c (eq_sym E)).
Qed.

Definition earthly (a : fatm B T) : Prop :=
  forall o b, nth_error (fa_nodes a) 0 = Some o -> o_body o = Some b -> is_earth b = true.
Definition readable (o : obj B T) : Prop := codec ser_body ser_track de_body de_track o /\ can_take fresh o.

(** Whatever was written without interactions is restored, node by node, into any object. *)
Theorem c59_restored_partial oob a f a0 : whole a -> Forall (fun o => o_inter o = false) (fa_nodes a) ->
  Forall readable (fa_nodes a) -> earthly a -> (100000 < nver)%Z -> wa oob true a = Ok f ->
  exists a', ra (Some f) a0 = (Ok tt, a') /\ fa_ini a' = Some true /\ fa_made a' = true /\
    fa_cos a' = fa_cos a /\ fa_E a' = fa_E a /\ Forall2 (restored track_x) (fa_nodes a) (fa_nodes a') /\
    (exists o b, nth_error (fa_nodes a) 0 = Some o /\ o_body o = Some b /\ fa_earth a' = Some b).
Proof.
  intros Wh Hi Hr He Hv W. pose proof (root_back oob a f W) as Rt. destruct Wh as [I M L N C].
  unfold write_atm in W. rewrite I, M in W. cbn [negb] in W.
  destruct (loop_written _ _ _ _ _ _ _ _ _ _ _ W) as (Wn & _ & _).
  unfold read_atm. rewrite Rt. cbn [root_group get_dset g_data lookup String.eqb Ascii.eqb Bool.eqb].
  destruct (fa_nodes a) as [|o l] eqn:En; [contradiction|]. destruct (fa_cos a) as [|c cos] eqn:Ec; [discriminate L|].
  rewrite Forall_forall in Hi, Hr, C.
  destruct (Wn 0%nat o eq_refl) as (c' & b & t & E0 & Hb & Ht & Lk & _). injection E0 as <-.
  destruct (Hr o (or_introl eq_refl)) as [Hcod Hcan].
  destruct (state_back ser_body ser_track de_body de_track track_x maxdim sver nver pad make_tables fresh c f o b t
    (C o (or_introl eq_refl)) Hcod Hcan Hv Hb Ht Lk (Hi o (or_introl eq_refl))) as (o' & Rd & Res & Bas).
  cbn [read_nodes]. rewrite Rd.
  destruct (r_switches _ _ _ Res) as [Ei _]. rewrite Ei, (Hi o (or_introl eq_refl)).
  destruct (rest_nodes_back ser_body ser_track de_body de_track track_x maxdim sver nver pad make_tables fresh f (fa_tab a0) cos l)
    as (l' & Er & F2).
  - cbn in L. lia.
  - intros k o1 Hk. assert (In1 : In o1 (o :: l)) by (right; apply nth_error_In with k; exact Hk).
    destruct (Hr o1 In1) as [A1 A2]. refine (conj (C o1 In1) (conj A1 (conj A2 (conj (or_introl (Hi o1 In1)) _)))).
    destruct (Wn (S k) o1 Hk) as (c1 & b1 & t1 & E1 & E2 & E3 & E4 & _). exists c1, b1, t1. auto.
  - exact Hv.
  - rewrite Er. cbn [r_body]. rewrite (r_body _ _ _ Res), Hb. rewrite (He o b) by (try rewrite En; auto).
    eexists. split; [reflexivity|]. cbn. repeat apply conj; auto.
    + constructor; [exact Res|]. clear - F2. induction F2 as [|x y l l' Hxy F2 IH]; constructor; [apply Hxy|exact IH].
    + exists o, b. auto.
Qed.

(** With interactions, under the conditions of C54 for the tables: they come back once and all nodes share them. *)
Theorem c59_tables_partial g a f a0 o1 : whole a -> Forall (fun o => o_inter o = true) (fa_nodes a) ->
  Forall readable (fa_nodes a) -> earthly a -> (101100 <= nver)%Z ->
  nth_error (fa_nodes a) 0 = Some o1 -> (2 <= ne o1)%nat -> o_tabled o1 = true -> targets (o_tab o1) <> [] ->
  sized_for (length (targets (o_tab o1))) (o_nrhos o1) (o_flav o1) (ne o1) (rounded (ne o1)) (o_tab o1) -> well (o_tab o1) ->
  (g = ne o1 -> rounded (ne o1) = ne o1) ->
  wa (Some g) true a = Ok f ->
  exists a' s, ra (Some f) a0 = (Ok tt, a') /\ fa_ini a' = Some true /\ fa_made a' = true /\
    fa_cos a' = fa_cos a /\ fa_E a' = fa_E a /\ Forall2 (restored track_x) (fa_nodes a) (fa_nodes a') /\
    fa_tab a' = Some s /\ restored_tables (ne o1) (rounded (ne o1)) (o_tab o1) s /\
    Forall (fun o => o_tab o = s /\ o_tabled o = true) (fa_nodes a').
Proof.
  intros Wh Hi Hr He Hv H1 Hne Htab Htg Hsz Hwell Hg W. pose proof (root_back (Some g) a f W) as Rt.
  destruct Wh as [I M L N C]. unfold write_atm in W. rewrite I, M in W. cbn [negb] in W.
  destruct (loop_written _ _ _ _ _ _ _ _ _ _ _ W) as (Wn & _ & _).
  unfold read_atm. rewrite Rt. cbn [root_group get_dset g_data lookup String.eqb Ascii.eqb Bool.eqb].
  destruct (fa_nodes a) as [|o l] eqn:En; [contradiction|]. destruct (fa_cos a) as [|c cos] eqn:Ec; [discriminate L|].
  cbn in H1. injection H1 as <-. rewrite Forall_forall in Hi, Hr, C.
  destruct (Wn 0%nat o eq_refl) as (c' & b & t & E0 & Hb & Ht & Lk & _). injection E0 as <-.
  destruct (Hr o (or_introl eq_refl)) as [Hcod Hcan].
  cbn [write_nodes nth_error Nat.eqb] in W.
  destruct (wr (Some g) false true "crosssections" (node_name c) (put "/"%string (root_group a) []) o)
    as [f1| |] eqn:W1; cbn [obind] in W; try discriminate W.
  destruct (c54_tables_partial ser_body ser_track de_body de_track track_x maxdim sver nver pad make_tables g false
    "crosssections"%string (node_name c) (put "/"%string (root_group a) []) o fresh f1 (C o (or_introl eq_refl)) Hcod Hcan Hv (node_name_apart c) Hne
    (Hi o (or_introl eq_refl)) Htab Htg Hsz Hwell Hg) as (o' & Rd & Res & Bas & Tb & Rt').
  { reflexivity. } { reflexivity. } { exact W1. }
  assert (Same : read_state de_body de_track track_x maxdim sver nver pad "crosssections" (node_name c) f fresh = Ok o').
  { destruct (loop_written _ _ _ _ _ _ _ _ _ _ _ W) as (Wn' & Ws & Wt). rewrite <- Rd. unfold read_state.
    rewrite node_name_norm.
    destruct (write_group _ _ _ _ _ _ _ _ _ _ _ _ _ (node_name_apart c) W1) as (b' & t' & Hb' & Ht' & Lk').
    rewrite node_name_norm in Lk'. rewrite Hb in Hb'. rewrite Ht in Ht'. injection Hb' as <-. injection Ht' as <-.
    rewrite Lk, Lk'.
    destruct (lookup (xs_path (node_name c) "crosssections") f1) as [x|] eqn:X.
    - change (xs_path (node_name c) "crosssections") with "/crosssections"%string in *.
      rewrite (Wt x ltac:(lia) X). reflexivity.
    - exfalso. unfold read_state in Rd. rewrite node_name_norm, Lk' in Rd.
      destruct (read_common _ _ _ _ _ _ _ _ _) as [[o2 nv]| |]; cbn [obind] in Rd; try discriminate Rd.
      rewrite X in Rd. destruct (o_inter o2) eqn:I2; [discriminate Rd|]. injection Rd as ->.
      destruct (r_switches _ _ _ Res) as [E _]. rewrite (Hi o (or_introl eq_refl)) in E. congruence. }
  cbn [read_nodes]. rewrite Same.
  destruct (r_switches _ _ _ Res) as [Ei _]. rewrite Ei, (Hi o (or_introl eq_refl)).
  destruct (rest_nodes_back ser_body ser_track de_body de_track track_x maxdim sver nver pad make_tables fresh f (Some (o_tab o')) cos l)
    as (l' & Er & F2).
  - cbn in L. lia.
  - intros k o1 Hk. assert (In1 : In o1 (o :: l)) by (right; apply nth_error_In with k; exact Hk).
    destruct (Hr o1 In1) as [A1 A2].
    refine (conj (C o1 In1) (conj A1 (conj A2 (conj (or_intror (ex_intro _ _ eq_refl)) _)))).
    destruct (Wn (S k) o1 Hk) as (c1 & b1 & t1 & E1 & E2 & E3 & E4 & _). exists c1, b1, t1. auto.
  - lia.
  - rewrite Er. cbn [r_body]. rewrite (r_body _ _ _ Res), Hb. rewrite (He o b) by (try rewrite En; auto).
    eexists. exists (o_tab o'). split; [reflexivity|]. cbn [fa_ini fa_made fa_cos fa_E fa_nodes fa_tab].
    refine (conj eq_refl (conj eq_refl (conj eq_refl (conj eq_refl (conj _ (conj eq_refl (conj Rt' _))))))).
    + constructor; [exact Res|]. clear - F2. induction F2 as [|x y l l' Hxy F2 IH]; constructor; [apply Hxy|exact IH].
    + constructor; [auto|].
      assert (Hl : forall x, In x l -> o_inter x = true) by (intros x Hx; apply Hi; right; exact Hx).
      clear - F2 Hl. induction F2 as [|x y l l' Hxy F2 IH]; constructor.
      * destruct Hxy as (_ & _ & Hxy). destruct (Hxy (Hl x (or_introl eq_refl))) as [E1 E2]. injection E1 as E1. auto.
      * apply IH. intros z Hz. apply Hl. right. exact Hz.
Qed.

(** Two nodes of the same name: the ensemble cannot be written. *)
Theorem c59_collision_refuted oob a i j x y : whole a -> (i < j)%nat ->
  nth_error (fa_cos a) i = Some x -> nth_error (fa_cos a) j = Some y -> node_name x = node_name y ->
  forall f, wa oob true a <> Ok f.
Proof.
  intros [I M L N C] Lij Hx Hy E f W. unfold write_atm in W. rewrite I, M in W. cbn [negb] in W.
  destruct (loop_written _ _ _ _ _ _ _ _ _ _ _ W) as (Wn & _ & _).
  assert (K : forall l cos (f0 f' : file PB PT) k, write_nodes ser_body ser_track sver nver make_tables oob cos k l f0 = Ok f' ->
    forall p q c d, (p < q < length l)%nat -> nth_error cos (k + p) = Some c -> nth_error cos (k + q) = Some d ->
    node_name c <> node_name d).
  { clear. induction l as [|o l IH]; intros cos f0 f' k W p q c d Hpq Hc Hd; cbn [length] in Hpq; [lia|].
    cbn [write_nodes] in W. destruct (nth_error cos k) as [e|] eqn:Ek; [|discriminate].
    destruct (wr oob false (Nat.eqb k 0) "crosssections" (node_name e) f0 o) as [f1| |] eqn:W1; cbn [obind] in W; try discriminate W.
    destruct p as [|p], q as [|q]; try lia.
    - rewrite Nat.add_0_r, Ek in Hc. injection Hc as <-. intro E.
      destruct (loop_written _ _ _ _ _ _ _ _ _ _ _ W) as (Wn & _ & _).
      destruct (nth_error l q) as [o'|] eqn:Ho; [|apply nth_error_None in Ho; lia].
      destruct (Wn q o' Ho) as (d' & _ & _ & E1 & _ & _ & _ & Fr).
      rewrite Nat.add_succ_r in Hd. cbn [Nat.add] in E1. rewrite Hd in E1. injection E1 as <-.
      destruct (write_group _ _ _ _ _ _ _ _ _ _ _ _ _ (node_name_apart e) W1) as (b & t & _ & _ & Lk).
      rewrite node_name_norm, E in Lk. unfold has in Fr. rewrite Lk in Fr. discriminate Fr.
    - apply (IH cos f1 f' (S k) W p q c d); [lia| |]; cbn [Nat.add]; rewrite <- Nat.add_succ_r; assumption. }
  apply (K _ _ _ _ _ W i j x y); auto.
  assert (j < length (fa_cos a))%nat by (apply nth_error_Some; congruence). lia.
Qed.

(** Not to overwrite an existing file cannot be asked for: the call fails, whatever the file. *)
Theorem c59_no_overwrite_refuted oob a : whole a -> wa oob false a = Throw RuntimeError.
Proof. intros [I M _ _ _]. unfold write_atm. rewrite I, M. reflexivity. Qed.

(** A read that fails on a missing node has already thrown the old nodes away, but the object goes on claiming a state. *)
Theorem c59_failed_read_refuted (f : file PB PT) a c cos Es : fa_ini a = Some true -> fa_made a = true ->
  lookup "/"%string f = Some (Group [] [("zenith_angles", DDbl [length (c :: cos)] (c :: cos));
                                        ("energy_range", DDbl [length Es] Es)]%string None None) ->
  lookup (node_name c) f = None ->
  exists e a', ra (Some f) a = (Throw e, a') /\ fa_ini a' = Some true /\ fa_made a' = true /\
    fa_cos a' = c :: cos /\ fa_nodes a' = map (fun _ => fresh) (c :: cos).
Proof.
  intros I M Rt Nd. unfold read_atm. rewrite Rt. cbn [get_dset g_data lookup String.eqb Ascii.eqb Bool.eqb].
  cbn [read_nodes]. unfold read_state. rewrite node_name_norm, Nd.
  eexists. eexists. split; [reflexivity|]. cbn. auto.
Qed.

End Theorems.

(** ** Concrete cases *)
Notation ex_wa := (write_atm ex_ser ex_ser 100 101103 ex_make).
Notation ex_ra := (read_atm ex_de ex_de ex_x 6 100 101103 0).
Definition ex_fresh : obj nat nat := ex_obj Neutrino [5] BInter (fun _ => 9) false true 5.
Definition ex_node (inter : bool) (k : R) : obj nat nat := ex_obj Both [1; 2] BInter (fun j => k + INR j) inter false 3.
Definition ex_atm (inter : bool) (cos : list R) : fatm nat nat :=
  FAtm (Some true) true cos [1; 2] (map (ex_node inter) cos) None (Some 3%nat).

Lemma ex_whole inter c cos : whole 6 (ex_atm inter (c :: cos)).
Proof.
  constructor; try reflexivity.
  - cbn. rewrite map_length. reflexivity.
  - discriminate.
  - cbn [ex_atm fa_nodes]. apply Forall_forall. intros o Hin. apply in_map_iff in Hin. destruct Hin as (x & <- & _).
    apply ex_complete; [discriminate|lia].
Qed.
Lemma ex_readable inter cos : Forall (readable ex_ser ex_ser ex_de ex_de ex_fresh) (fa_nodes (ex_atm inter cos)).
Proof.
  cbn [ex_atm fa_nodes]. apply Forall_forall. intros o Hin. apply in_map_iff in Hin. destruct Hin as (x & <- & _).
  split; [apply ex_codec|]. left. cbn. lia.
Qed.
Lemma ex_inter inter cos : Forall (fun o => o_inter o = inter) (fa_nodes (ex_atm inter cos)).
Proof. cbn [ex_atm fa_nodes]. apply Forall_forall. intros o Hin. apply in_map_iff in Hin. destruct Hin as (x & <- & _). reflexivity. Qed.

Lemma ex_apart : forall i j x y, (i < j)%nat -> nth_error [-1; 0; 1/2] i = Some x -> nth_error [-1; 0; 1/2] j = Some y ->
  1 / 1000000 < Rabs (x - y).
Proof.
  intros i j x y L Hx Hy.
  destruct i as [|[|[|i]]], j as [|[|[|j]]]; cbn in Hx, Hy; try lia; try (destruct i; discriminate); try (destruct j; discriminate);
    injection Hx as <-; injection Hy as <-; rewrite Rabs_left; lra.
Qed.

(** Three nodes without interactions, written and read. *)
Example c59_nonvacuous : exists f a', ex_wa None true (ex_atm false [-1; 0; 1/2]) = Ok f /\
  ex_ra ex_fresh (fun b => Nat.eqb b 3) (Some f) (ex_atm true [7]) = (Ok tt, a') /\ fa_cos a' = [-1; 0; 1/2] /\
  (exists o, nth_error (fa_nodes a') 2 = Some o /\ o_rho o 1 0 5%nat = 1/2 + 5).
Proof.
  destruct (c59_spaced ex_ser ex_ser 6 100 101103 ex_make None _ (ex_whole false _ _) (ex_inter false _) ex_apart) as [f W].
  destruct (c59_restored_partial ex_ser ex_ser ex_de ex_de ex_x 6 100 101103 0 ex_make ex_fresh (fun b => Nat.eqb b 3) None
    (ex_atm false [-1; 0; 1/2]) f (ex_atm true [7])) as (a' & Rd & _ & _ & C & _ & F2 & _);
    [apply ex_whole|apply ex_inter|apply ex_readable| |lia|exact W|].
  { intros o b E Hb. injection E as <-. injection Hb as <-. reflexivity. }
  exists f, a'. split; [exact W|]. split; [exact Rd|]. split; [exact C|].
  cbn [ex_atm fa_nodes map] in F2. inversion F2 as [|? ? ? ? _ F2']; subst. inversion F2' as [|? ? ? ? _ F3]; subst.
  inversion F3 as [|o o' ? ? Res F4]; subst. inversion F4; subst. exists o'. split; [reflexivity|].
  rewrite (r_rho _ _ _ Res) by (cbn; lia). cbn. lra.
Qed.

(** Two nodes with interactions: the tables come back once. *)
Example c59_tables_nonvacuous : exists f a', ex_wa (Some 0%nat) true (ex_atm true [-1; 1/2]) = Ok f /\
  ex_ra ex_fresh (fun b => Nat.eqb b 3) (Some f) (ex_atm false [7]) = (Ok tt, a') /\
  (exists o, nth_error (fa_nodes a') 1 = Some o /\ nth (1 * 4 + 1) (a_data (dNdE_GR (o_tab o))) 0 = 5).
Proof.
  assert (W : exists f, ex_wa (Some 0%nat) true (ex_atm true [-1; 1/2]) = Ok f).
  { apply c59_written with (maxdim := 6%nat); [apply ex_whole| |].
    - apply far_apart. intros i j x y L Hx Hy.
      destruct i as [|[|i]], j as [|[|j]]; cbn in Hx, Hy; try lia; try (destruct i; discriminate); try (destruct j; discriminate);
        injection Hx as <-; injection Hy as <-; rewrite Rabs_left; lra.
    - intros o E. right. injection E as <-. exists 0%nat, 4%nat. split; [reflexivity|]. split; [reflexivity|].
      apply (ex_sized Both BInter (fun j => -1 + INR j) false). }
  destruct W as [f W].
  destruct (ex_sized Both BInter (fun j => -1 + INR j) false) as (A1 & A2 & A3).
  destruct (c59_tables_partial ex_ser ex_ser ex_de ex_de ex_x 6 100 101103 0 ex_make ex_fresh (fun b => Nat.eqb b 3) 0%nat
    (ex_atm true [-1; 1/2]) f (ex_atm false [7]) (ex_node true (-1))) as (a' & s & Rd & _ & _ & C & _ & F2 & _ & Rt & Fs);
    [apply ex_whole|apply ex_inter|apply ex_readable| |lia|reflexivity|cbn; lia|reflexivity|discriminate|exact A1|exact A2|discriminate|exact W|].
  { intros o b E Hb. injection E as <-. injection Hb as <-. reflexivity. }
  exists f, a'. split; [exact W|]. split; [exact Rd|].
  cbn [ex_atm fa_nodes map] in F2. remember (fa_nodes a') as l eqn:El. clear El.
  inversion F2 as [|x1 y1 l1 l1' _ F3]; subst. inversion F3 as [|x2 o l2 l2' _ F4]; subst.
  exists o. split; [reflexivity|].
  assert (Es : o_tab o = s) by (rewrite Forall_forall in Fs; apply Fs; right; left; reflexivity).
  rewrite Es. destruct Rt as (_ & _ & _ & (_ & G) & _). destruct (G 2%nat) as (_ & G').
  { cbn. reflexivity. }
  pose proof (G' 1 1)%nat as G1. change (rounded (ne (ex_node true (-1)))) with 4%nat in G1. rewrite G1 by (cbn; lia). cbn. lra.
Qed.

(** Distinct angles closer than half a millionth cannot be written, whatever else. *)
Theorem c59_close_angles_refuted : exists (a : fatm nat nat) x y, whole 6 a /\ Forall (fun o => o_inter o = false) (fa_nodes a) /\
  fa_cos a = [x; y] /\ 0 <= x < y /\ y <= 1 /\ forall oob overwrite f, ex_wa oob overwrite a <> Ok f.
Proof.
  exists (ex_atm false [0; 1 / 10000000]), 0, (1 / 10000000).
  split; [apply ex_whole|]. split; [apply ex_inter|]. split; [reflexivity|]. split; [lra|]. split; [lra|].
  intros oob [|] f.
  - apply c59_collision_refuted with (maxdim := 6%nat) (i := 0%nat) (j := 1%nat) (x := 0) (y := 1 / 10000000);
      [apply ex_whole|lia|reflexivity|reflexivity|].
    apply c59_names. split; [lra|].
    assert (E : forall y, 0 <= y < 1 / 2 -> nearest y = 0%Z).
    { intros y Hy. assert (F : Int_part y = 0%Z).
      { destruct (base_Int_part y) as [A B]. assert (-1 < Int_part y < 1)%Z; [|lia]. split; apply lt_IZR; lra. }
      unfold nearest. rewrite F. cbn [Z.even]. destruct (Rlt_dec (y - 0) (1 / 2)); [reflexivity|lra]. }
    rewrite !E; [reflexivity| |]; rewrite Rabs_pos_eq; lra.
  - rewrite c59_no_overwrite_refuted with (maxdim := 6%nat); [discriminate|apply ex_whole].
Qed.

(** A file that ends after the list of angles. *)
Example c59_failed_read_nonvacuous : exists f e a', ex_ra ex_fresh (fun b => Nat.eqb b 3) (Some f) (ex_atm false [-1; 0; 1/2]) = (Throw e, a') /\
  fa_ini a' = Some true /\ fa_nodes a' = [ex_fresh; ex_fresh] /\ fa_cos a' = [1; 2].
Proof.
  set (f := put (PB := nat) (PT := nat) "/"%string (root_group (ex_atm false [1; 2])) []).
  exists f.
  destruct (c59_failed_read_refuted ex_de ex_de ex_x 6 100 101103 0 ex_fresh (fun b => Nat.eqb b 3) f (ex_atm false [-1; 0; 1/2])
    1 [2] [1; 2] eq_refl eq_refl eq_refl) as (e & a' & Rd & I & _ & C & N).
  { unfold f, put. rewrite lookup_put_other by apply node_name_root. reflexivity. }
  exists e, a'. split; [exact Rd|]. split; [exact I|]. split; [exact N|exact C].
Qed.

Print Assumptions c59_names.
Print Assumptions c59_written.
Print Assumptions c59_spaced.
Print Assumptions c59_restored_partial.
Print Assumptions c59_tables_partial.
Print Assumptions c59_collision_refuted.
Print Assumptions c59_close_angles_refuted.
Print Assumptions c59_no_overwrite_refuted.
Print Assumptions c59_failed_read_refuted.
