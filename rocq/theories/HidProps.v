(** C98: identifiers of the HDF5 library taken by saves and loads are given back.

    HidModel.v against HidSpec.v.  [of_files]: files, groups, datasets and attributes, which keep a
    file open; [any_kind]: also dataspaces, datatypes and property lists. *)
From Coq Require Import List Arith Bool Lia.
From Verif Require Import HidModel HidSpec HidProofs.
Import ListNotations.
Local Open Scope hid_scope.

(** The helpers give everything back: always, or when they return. *)
Theorem c98_tools : forall l,
  always_tidy any_kind (add_attribute l) /\ always_tidy any_kind (read_attribute l) /\
  always_tidy any_kind (read_string_attribute l) /\
  (forall c, always_tidy any_kind (write_array l c)) /\
  always_tidy of_files (add_string_attribute l) /\
  tidy_on_return any_kind (read_plain l) /\ (forall r, tidy_on_return any_kind (read_array l r)).
Proof.
  intros l.
  split; [apply bal_always, bal_add_attribute|].
  split; [apply bal_always, bal_read_attribute|].
  split; [apply bal_always, bal_read_string|].
  split; [intros c; apply bal_always, bal_write_array|].
  split; [apply bal_always, bal_add_string, not_free|].
  split; [apply bal_on_return, bal_read_plain|].
  intros r. apply bal_on_return, bal_read_array.
Qed.

(** A save gives back everything of the file, whatever the library answers and whatever happens. *)
Theorem c98_save : forall s, good_save s -> no_reading s -> always_tidy of_files (write_state s).
Proof. intros s G N. apply bal_always, save_bal; [exact G|intros _; exact N]. Qed.

(** With tables still to be read, when it returns. *)
Theorem c98_save_returned : forall s, good_save s -> tidy_on_return of_files (write_state s).
Proof. intros s G. apply bal_on_return, save_bal; [exact G|discriminate]. Qed.

(** The same for an ensemble, of any number of nodes. *)
Theorem c98_save_all : forall f ready over nodes,
  (forall s, In s nodes -> good_save s /\ no_reading s) ->
  always_tidy of_files (write_atm f ready over nodes).
Proof.
  intros f ready over nodes G. apply bal_always, bal_write_atm. intros s Hs.
  apply save_bal; [apply G, Hs|intros _; apply G, Hs].
Qed.

(** A load gives back everything when it returns; and always, if the readers of the media give
    back what they take and the hook does not throw. *)
Theorem c98_load : forall j,
  (good_load j -> tidy_on_return of_files (read_state j) /\
                  forall g, tidy_on_return of_files (read_state_internal j g)) /\
  (strict_load j -> always_tidy of_files (read_state j) /\
                    forall g, always_tidy of_files (read_state_internal j g)).
Proof.
  intros j. split; intros G.
  - destruct (load_bal j G) as [H1 H2]. split; [apply bal_on_return, H1|intros g; apply bal_on_return, H2].
  - destruct (strict_bal j G) as [H1 H2]. split; [apply bal_always, H1|intros g; apply bal_always, H2].
Qed.

Theorem c98_load_all : forall f first given others,
  (good_load first -> (forall j, In j others -> good_load j) ->
   tidy_on_return of_files (read_atm f first given others)) /\
  (strict_load first -> (forall j, In j others -> strict_load j) ->
   always_tidy of_files (read_atm f first given others)).
Proof.
  intros f first given others. split; intros G1 G2.
  - apply bal_on_return, bal_read_atm; [exact (proj1 (load_bal _ G1))|].
    intros j Hj. exact (proj2 (load_bal _ (G2 j Hj)) given).
  - apply bal_always, bal_read_atm; [exact (proj1 (strict_bal _ G1))|].
    intros j Hj. exact (proj2 (strict_bal _ (G2 j Hj)) given).
Qed.

(** Files of tables: written, everything is given back whatever happens; read, when it succeeds. *)
Theorem c98_tables : forall f,
  (forall c s, always_tidy any_kind (write_hdf f c s)) /\ always_tidy any_kind (write_hdf_v1 f) /\
  tidy_on_return any_kind (read_hdf f) /\ tidy_on_return any_kind (read_hdf_v1 f).
Proof.
  intros f. split; [intros; apply bal_always, bal_write_hdf|].
  split; [apply bal_always, bal_write_hdf_v1|].
  split; [apply bal_on_return, bal_read_hdf|apply bal_on_return, bal_read_hdf_v1].
Qed.

(** A program which saves and loads any number of times, in any order, going on after failed saves,
    holds afterwards the files it held before and no other; and has closed nothing wrongly. *)
Theorem c98_session : forall ss, (forall s, In s ss -> good_step s) ->
  forall o w, sound w -> returned (fst (each ss do_step o w)) ->
  let w' := snd (each ss do_step o w) in
  (forall f, held f w' <-> held f w) /\ w_wrong w' = w_wrong w.
Proof.
  intros ss G o w Sw R. cbv zeta.
  destruct (session_bal ss G o w Sw (fun _ => R)) as [T _].
  split; [intros f; apply tidy_held, T|apply T].
Qed.

(** So it can then write over any file. *)
Theorem c98_reusable : forall ss, (forall s, In s ss -> good_step s) ->
  forall o, healthy o -> returned (fst (each ss do_step o start)) ->
  forall f, exists i, fst (h5f_create f o (snd (each ss do_step o start))) = Ret (Some i).
Proof.
  intros ss G o Ho R f.
  assert (Sw : sound start) by (intros i k []).
  destruct (c98_session ss G o start Sw R) as [H _].
  unfold h5f_create. rewrite (unheld f).
  - destruct (session_bal ss G o start Sw (fun _ => R)) as [_ S'].
    destruct (gets_take (File f) o _ Ho S') as (k & w0 & -> & _). eexists. reflexivity.
  - intros C. apply H in C. destruct C as (i & [[]|[]]).
Qed.

(** What a successful save does leave open, exactly: 2 datatypes, 11 with the tables. *)
Theorem c98_left : forall s o w, healthy o -> sound w -> ~ held (s_file s) w -> plain_save s ->
  exists x w', write_state s o w = (Ret tt, w') /\ w_open w' = x ++ w_open w /\
    length x = left_by s /\ (forall i k, In (i, k) x -> k = Free).
Proof.
  intros s o w Ho Sw U P. destruct (save_leaves s o w Ho Sw U P) as (x & w' & H1 & H2 & H3 & H4 & _).
  exists x, w'. auto.
Qed.

(** The claim "a save gives back every identifier" is false, of every successful save; what is left
    grows with their number. *)
Theorem c98_types_left_refuted : forall ss o w, healthy o -> sound w ->
  (forall s, In s ss -> plain_save s /\ ~ held (s_file s) w) ->
  exists w', each ss write_state o w = (Ret tt, w') /\
    length (w_open w) + 2 * length ss <= length (w_open w').
Proof.
  intros ss o w Ho Sw H. destruct (saves_leave ss o w Ho Sw H) as (w' & E & L & _).
  exists w'. split; [exact E|]. rewrite L. apply Nat.add_le_mono_l.
  clear. induction ss as [|s ss IH]; cbn [length map list_sum fold_right]; [lia|].
  unfold left_by at 1. unfold list_sum in IH. destruct (s_tables s); lia.
Qed.

Definition quiet (l : loc) : M unit := ret tt.
Definition yes : answers := fun _ => 1.
Definition no_at (l : list nat) : answers := fun n => if existsb (Nat.eqb n) l then 0 else 1.
Definition earth_save : save := Save true 7 true false false 3 true None false true false Earth TEarth quiet.

(** A medium of the user whose Serialize throws (and takes nothing): the group stays open, the
    file with it, and the same save with another medium then fails, the library failing in nothing. *)
Definition throwing : body := UserBody (fun _ => throw) (fun _ => throw).
Definition throwing_save : save := Save true 7 true false false 3 false None false false false throwing TThree quiet.

Theorem c98_serialize_throws_refuted :
  (forall l, always_tidy any_kind (serialize_body throwing l)) /\
  let w' := snd (write_state throwing_save yes start) in
  held 7 w' /\ ~ held 7 start /\
  fst (write_state earth_save yes start) = Ret tt /\ fst (write_state earth_save yes w') = Exc.
Proof.
  split; [intros l; apply bal_always, bal_throw|]. cbv zeta.
  split; [exists 13; right; vm_compute; auto|].
  split; [intros (i & [[]|[]])|]. split; vm_compute; reflexivity.
Qed.

(** An AddToReadHDF5 which throws leaves its group open, and so the file. *)
Definition hooked : load := Load 7 false [Vacuum; ConstantDensity] [TThree; TThree] (fun _ => throw).
Definition plain_load : load := Load 7 false [Vacuum; ConstantDensity] [TThree; TThree] quiet.

Theorem c98_hook_throws_refuted :
  fst (read_state plain_load (no_at [3; 14]) start) = Ret tt /\
  held 7 (snd (read_state hooked (no_at [3; 14]) start)) /\
  fst (write_state earth_save yes (snd (read_state hooked (no_at [3; 14]) start))) = Exc.
Proof.
  split; [vm_compute; reflexivity|]. split; [exists 10; right; vm_compute; auto|vm_compute; reflexivity].
Qed.

(** An attribute of the medium which is there and cannot be read as a number: the load fails, the
    attribute stays open, the file cannot be written over. *)
Theorem c98_unreadable_refuted :
  fst (read_state plain_load (no_at [3; 14; 22]) start) = Exc /\
  held 7 (snd (read_state plain_load (no_at [3; 14; 22]) start)) /\
  fst (write_state earth_save yes (snd (read_state plain_load (no_at [3; 14; 22]) start))) = Exc.
Proof.
  split; [vm_compute; reflexivity|]. split; [exists 4; right; vm_compute; auto|vm_compute; reflexivity].
Qed.

(** A table of another rank than expected: the dataset stays open, and the file. *)
Theorem c98_rank_refuted :
  fst (read_hdf 5 (fun _ => 2) start) = Exc /\ held 5 (snd (read_hdf 5 (fun _ => 2) start)).
Proof. split; [vm_compute; reflexivity|exists 1; right; vm_compute; auto]. Qed.

(** ** The hypotheses are met *)

Example c98_save_case : good_save earth_save /\ no_reading earth_save /\ plain_save earth_save /\
  fst (write_state earth_save yes start) = Ret tt /\
  map snd (w_open (snd (write_state earth_save yes start))) = repeat Free 11.
Proof.
  split; [split; [exact I|split; [exact I|intros l; apply bal_always, bal_ret]]|].
  split; [left; reflexivity|].
  split; [repeat split|]. split; vm_compute; reflexivity.
Qed.

(** The file is held in the middle, and a save failing there gives it back. *)
Example c98_failing_case :
  fst (write_state earth_save (no_at [60]) start) = Exc /\
  map snd (w_open (snd (write_state earth_save (no_at [60]) start))) = repeat Free 2.
Proof. split; vm_compute; reflexivity. Qed.

Example c98_load_case : good_load plain_load /\ fst (read_state plain_load (no_at [3; 14]) start) = Ret tt.
Proof.
  split; [|vm_compute; reflexivity].
  split; [intros b [<-|[<-|[]]]; exact I|]. split; [intros t [<-|[<-|[]]]; exact I|].
  intros l. apply bal_on_return, bal_ret.
Qed.

Definition atm_load : load := Load 7 true [Vacuum] [TEarthAtm] quiet.

Example c98_strict_case : strict_load atm_load /\
  fst (read_state atm_load (no_at [3; 14; 20; 26]) start) = Ret tt.
Proof.
  split; [|vm_compute; reflexivity].
  split; [intros b l [<-|[]]; apply bal_always, bal_ret|].
  split; [intros t l [<-|[]]; apply bal_always|].
  - unfold deserialize_track. apply bal_bind; [apply bal_times, bal_read_attribute|intros _].
    apply bal_bind; [apply bal_times, bal_read_if_there|intros _; apply bal_must].
  - split; intros l; [apply bal_always, bal_ret|apply nt_ret].
Qed.

Definition day : list step :=
  [DoSave earth_save; DoWriteTables 9 true false; DoSaveAll 8 true true [earth_save; earth_save]; DoSave earth_save].

Example c98_session_case : (forall s, In s day -> good_step s) /\ returned (fst (each day do_step yes start)).
Proof.
  split; [|eexists; vm_compute; reflexivity].
  assert (G : good_save earth_save /\ no_reading earth_save) by (split; apply c98_save_case).
  intros s H. repeat destruct H as [<-|H]; try contradiction; cbn [good_step]; auto.
  intros s [<-|[<-|[]]]; exact G.
Qed.

(** Giving back what is not open is noticed, and changes nothing else: what [w_wrong] counts. *)
Theorem c98_wrong_close : forall i o w, (forall k, ~ In (i, k) (w_open w)) ->
  w_wrong (snd (give (Some i) o w)) = S (w_wrong w) /\ w_open (snd (give (Some i) o w)) = w_open w.
Proof.
  intros i o w H. unfold give. assert (N : is_open i w = false).
  { unfold is_open. destruct (existsb _ _) eqn:E; [|reflexivity]. apply existsb_exists in E. destruct E as ((j & k) & Hin & E). cbn [fst] in E. apply Nat.eqb_eq in E. subst j. exfalso. now apply (H k). }
  rewrite N. now split.
Qed.
Example c98_wrong_close_case : w_wrong (snd (give (Some 3) yes start)) = S (w_wrong start).
Proof. reflexivity. Qed.
Print Assumptions c98_wrong_close.
Print Assumptions c98_tools.
Print Assumptions c98_save.
Print Assumptions c98_save_returned.
Print Assumptions c98_save_all.
Print Assumptions c98_load.
Print Assumptions c98_load_all.
Print Assumptions c98_tables.
Print Assumptions c98_session.
Print Assumptions c98_reusable.
Print Assumptions c98_left.
Print Assumptions c98_types_left_refuted.
Print Assumptions c98_serialize_throws_refuted.
Print Assumptions c98_hook_throws_refuted.
Print Assumptions c98_unreadable_refuted.
Print Assumptions c98_rank_refuted.
