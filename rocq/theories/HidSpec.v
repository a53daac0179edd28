(** What it means for identifiers to be given back. *)
From Coq Require Import List Arith.
From Verif Require Import HidModel.
Import ListNotations.

(** Identifiers are given out in increasing order. *)
Definition sound (w : world) : Prop := forall i k, In (i, k) (w_open w) -> i < w_next w.

(** The library still has the file open. *)
Definition held (f : nat) (w : world) : Prop :=
  exists i, In (i, File f) (w_open w) \/ In (i, Inside f) (w_open w).

(** Of the kinds [p], after as before: every identifier open before is open after, everything else
    open after is new and of another kind, and nothing was closed which was not open. *)
Definition tidy (p : what -> Prop) (w w' : world) : Prop :=
  (forall i k, In (i, k) (w_open w) -> In (i, k) (w_open w')) /\
  (forall i k, In (i, k) (w_open w') -> In (i, k) (w_open w) \/ (w_next w <= i /\ ~ p k)) /\
  w_wrong w' = w_wrong w /\ w_next w <= w_next w'.

Definition of_files (k : what) : Prop := k <> Free.
Definition any_kind (k : what) : Prop := True.

Definition returned {A} (r : res A) : Prop := exists a, r = Ret a.

(** Whatever the library answers, whatever happens. *)
Definition always_tidy (p : what -> Prop) {A} (m : M A) : Prop :=
  forall o w, sound w -> tidy p w (snd (m o w)) /\ sound (snd (m o w)).

(** When it returns. *)
Definition tidy_on_return (p : what -> Prop) {A} (m : M A) : Prop :=
  forall o w, sound w -> returned (fst (m o w)) -> tidy p w (snd (m o w)) /\ sound (snd (m o w)).

Definition never_throws {A} (m : M A) : Prop := forall o w, returned (fst (m o w)).

(** A library which never fails. *)
Definition healthy (o : answers) : Prop := forall n, o n <> 0.

(** The media and trajectories of the library itself. *)
Definition own_body (b : body) : Prop := match b with UserBody _ _ => False | _ => True end.
Definition own_track (t : track) : Prop := match t with UserTrack _ _ => False | _ => True end.

(** A user's code which gives everything back. *)
Definition good_body (b : body) : Prop :=
  match b with
  | UserBody ser des =>
      (forall l, always_tidy of_files (ser l)) /\ (forall l, never_throws (ser l)) /\
      (forall l, tidy_on_return of_files (des l))
  | _ => True
  end.
Definition good_track (t : track) : Prop :=
  match t with
  | UserTrack ser des =>
      (forall l, always_tidy of_files (ser l)) /\ (forall l, never_throws (ser l)) /\
      (forall l, tidy_on_return of_files (des l))
  | _ => True
  end.

(** A save whose media and hook give back what they take. *)
Definition good_save (s : save) : Prop :=
  good_body (s_body s) /\ good_track (s_track s) /\ (forall l, always_tidy of_files (s_hook s l)).

(** It has no file of tables to read. *)
Definition no_reading (s : save) : Prop := s_fresh s = None \/ s_fresh s = Some [].

(** A load whose registered media and hook give back what they take when they return. *)
Definition good_load (j : load) : Prop :=
  (forall b, In b (l_bodies j) -> good_body b) /\ (forall t, In t (l_tracks j) -> good_track t) /\
  (forall l, tidy_on_return of_files (l_hook j l)).

(** A load which gives back everything even when it fails: the readers give back what they take,
    and the hook does not throw. *)
Definition strict_load (j : load) : Prop :=
  (forall b l, In b (l_bodies j) -> always_tidy of_files (deserialize_body b l)) /\
  (forall t l, In t (l_tracks j) -> always_tidy of_files (deserialize_track t l)) /\
  (forall l, always_tidy of_files (l_hook j l)) /\ (forall l, never_throws (l_hook j l)).

(** What a program does with files, one thing after another; it goes on after a failed save. *)
Inductive step :=
| DoSave (s : save) | DoLoad (j : load) | DoSaveAll (f : nat) (ready over : bool) (nodes : list save)
| DoLoadAll (f : nat) (first : load) (given : bool) (others : list load)
| DoReadTables (f : nat) | DoWriteTables (f : nat) (compress same : bool)
| DoReadTables1 (f : nat) | DoWriteTables1 (f : nat).

Definition do_step (s : step) : M unit :=
  match s with
  | DoSave s => attempt (write_state s)
  | DoLoad j => read_state j
  | DoSaveAll f ready over nodes => attempt (write_atm f ready over nodes)
  | DoLoadAll f first given others => read_atm f first given others
  | DoReadTables f => read_hdf f
  | DoWriteTables f c s => attempt (write_hdf f c s)
  | DoReadTables1 f => read_hdf_v1 f
  | DoWriteTables1 f => attempt (write_hdf_v1 f)
  end.

Definition good_step (s : step) : Prop :=
  match s with
  | DoSave s => good_save s /\ no_reading s
  | DoLoad j => good_load j
  | DoSaveAll _ _ _ nodes => forall s, In s nodes -> good_save s /\ no_reading s
  | DoLoadAll _ first _ others => good_load first /\ (forall j, In j others -> good_load j)
  | _ => True
  end.

(** A plain object: complete, media of the library, tables already there, no hook of the user. *)
Definition plain_save (s : save) : Prop :=
  s_complete s = true /\ own_body (s_body s) /\ own_track (s_track s) /\ s_fresh s = None /\
  (forall l, s_hook s l = ret tt).

(** What such a save leaves open: one datatype for each name and each description written. *)
Definition left_by (s : save) : nat := if s_tables s then 11 else 2.

(** Nothing open. *)
Definition start : world := World [] 0 0 0.
