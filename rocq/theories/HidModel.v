(** The HDF5 identifiers taken and given back by saves and loads: tools.h, tools.cpp,
    body.cpp, nuSQuIDS.cpp, nuSQuIDS.h, xsections.cpp.

    The HDF5 library is outside the repository.  Every call to it asks an oracle for its answer:
    0 is failure, any other number success (the number also stands for a value read).  The same
    oracle answers for the parts of the program which may throw and do not call the library
    (constructors, setters, [init]).  The [H5LT] calls close what they open, so they are a plain
    question.  What is kept is which identifiers are open.  A file stays open in the library
    as long as the file identifier, or a group, dataset or attribute of it, is open, and
    a file which is open cannot be truncated (H5Fcreate then fails).  A call at an invalid location
    fails. *)
From Coq Require Import List Arith Bool.
Import ListNotations.

(** What an identifier stands for: a file, an object in a file (group, dataset, attribute), or
    something of memory only (dataspace, datatype, property list). *)
Inductive what := File (f : nat) | Inside (f : nat) | Free.

(** The identifiers open, the next one, the number of questions asked, and the number of closes
    of an identifier which was not open. *)
Record world := World { w_open : list (nat * what); w_next : nat; w_asked : nat; w_wrong : nat }.

Definition answers := nat -> nat.
Inductive res (A : Type) := Ret (a : A) | Exc.
Arguments Ret {A} a.
Arguments Exc {A}.

Definition M (A : Type) := answers -> world -> res A * world.

Definition ret {A} (a : A) : M A := fun o w => (Ret a, w).
Definition throw {A} : M A := fun o w => (Exc, w).
Definition bind {A B} (m : M A) (k : A -> M B) : M B := fun o w =>
  match m o w with
  | (Ret a, w') => k a o w'
  | (Exc, w') => (Exc, w')
  end.

Declare Scope hid_scope.
Delimit Scope hid_scope with hid.
Notation "x <- m ;; k" := (bind m (fun x => k)) (at level 100, m at next level, right associativity) : hid_scope.
Notation "m ;; k" := (bind m (fun _ => k)) (at level 100, right associativity) : hid_scope.
Open Scope hid_scope.

(** A question, and its answer. *)
Definition ask : M nat := fun o w =>
  (Ret (o (w_asked w)), World (w_open w) (w_next w) (S (w_asked w)) (w_wrong w)).

(** The status is looked at: [if(err<0) throw]. *)
Definition must : M unit := a <- ask ;; if a =? 0 then throw else ret tt.

(** An identifier as the program has it: [None] is negative. *)
Definition hid := option nat.

Definition push (k : what) : M hid := fun o w =>
  (Ret (Some (w_next w)), World ((w_next w, k) :: w_open w) (S (w_next w)) (w_asked w) (w_wrong w)).

Definition take (k : what) : M hid := a <- ask ;; if a =? 0 then ret None else push k.

Definition is_open (i : nat) (w : world) : bool := existsb (fun e => fst e =? i) (w_open w).

(** H5Fclose, H5Gclose, H5Dclose, H5Aclose, H5Sclose, H5Tclose, H5Pclose. *)
Definition give (h : hid) : M unit := fun o w =>
  match h with
  | None => (Ret tt, w)
  | Some i =>
      if is_open i w
      then (Ret tt, World (filter (fun e => negb (fst e =? i)) (w_open w)) (w_next w) (w_asked w) (w_wrong w))
      else (Ret tt, World (w_open w) (w_next w) (w_asked w) (S (w_wrong w)))
  end.

(** A call on an identifier: on an invalid one it fails. *)
Definition on (h : hid) : M nat := match h with Some _ => ask | None => ask ;; ret 0 end.

(** A location for the library: the file it belongs to, [None] for an invalid identifier. *)
Definition loc := option nat.
Definition at_ (l : loc) (h : hid) : loc := match h with Some _ => l | None => None end.

(** Opening or creating a group, dataset or attribute. *)
Definition take_in (l : loc) : M hid :=
  match l with Some f => take (Inside f) | None => ask ;; ret None end.

Definition in_file (f : nat) (k : what) : bool :=
  match k with File g => g =? f | Inside g => g =? f | Free => false end.

(** H5Fopen. *)
Definition h5f_open (f : nat) : M hid := take (File f).

(** H5Fcreate with H5F_ACC_TRUNC. *)
Definition h5f_create (f : nat) : M hid := fun o w =>
  if existsb (fun e => in_file f (snd e)) (w_open w)
  then (ask ;; ret None) o w
  else take (File f) o w.

(** A destructor runs whatever happens. *)
Definition finally {A} (m : M A) (d : M unit) : M A := fun o w =>
  let '(r, w1) := m o w in
  let '(_, w2) := d o w1 in (r, w2).

(** tools.h 269-305, H5Handle: throws on a negative identifier, closes at the end of its scope. *)
Definition handle {A} (t : M hid) (body : hid -> M A) : M A :=
  h <- t ;;
  match h with
  | None => throw
  | Some i => finally (body h) (give h)
  end.

(** A handle whose identifier is the location of what follows. *)
Definition handle_in {A} (l : loc) (body : loc -> M A) : M A :=
  handle (take_in l) (fun h => body (at_ l h)).

(** A handle on something of memory. *)
Definition handle_mem {A} (body : M A) : M A := handle (take Free) (fun _ => body).

Fixpoint times (n : nat) (m : M unit) : M unit :=
  match n with 0 => ret tt | S n' => m ;; times n' m end.

(** tools.h 384-392; also body.cpp 81-88 and 100-107. *)
Definition add_attribute (l : loc) : M unit :=
  s <- take Free ;;
  a <- take_in l ;;
  ask ;;
  give a ;;
  give s.

(** tools.cpp 809-818; also body.cpp 53-62.  The datatype copied is not closed. *)
Definition add_string_attribute (l : loc) : M unit :=
  t <- take Free ;;
  ask ;;
  s <- take Free ;;
  a <- take_in l ;;
  ask ;;
  give a ;;
  give s.

(** tools.h 398-418. *)
Definition read_attribute (l : loc) : M unit :=
  a <- take_in l ;;
  t <- match a with Some _ => take Free | None => ask ;; ret None end ;;
  e <- on t ;;
  if e =? 0 then (give a ;; give t ;; throw)
  else
    r <- on a ;;
    if r =? 0 then (give a ;; give t ;; throw)
    else (give a ;; give t).

(** tools.cpp 821-842. *)
Definition read_string_attribute (l : loc) : M unit :=
  a <- take_in l ;;
  t <- match a with Some _ => take Free | None => ask ;; ret None end ;;
  c <- on t ;;
  if c =? 0 then (give a ;; give t ;; throw)
  else
    ask ;;
    r <- on a ;;
    if r =? 0 then (give a ;; give t ;; throw)
    else (give a ;; give t).

(** body.cpp 90-98 and 109-117: the attribute is not closed when it cannot be read. *)
Definition read_plain (l : loc) : M unit :=
  a <- take_in l ;;
  r <- on a ;;
  if r =? 0 then throw else give a.

(** tools.h 319-359. *)
Definition write_array (l : loc) (compress : bool) : M unit :=
  s <- take Free ;;
  p <- (if compress then (p <- take Free ;; ask ;; ask ;; ret p) else ret None) ;;
  d <- take_in l ;;
  e <- on d ;;
  (if compress then give p else ret tt) ;;
  give d ;;
  give s ;;
  if e =? 0 then throw else ret tt.

(** tools.h 362-381: with another rank the dataset and its dataspace stay open. *)
Definition read_array (l : loc) (rank : nat) : M unit :=
  d <- take_in l ;;
  match d with
  | None => throw
  | Some _ =>
      s <- take Free ;;
      r <- ask ;;
      if negb (r =? rank) then throw
      else
        ask ;;
        give s ;;
        e <- ask ;;
        give d ;;
        if e =? 0 then throw else ret tt
  end.

(** xsections.cpp 381-413. *)
Definition read_flavor (l : loc) : M unit :=
  times 4 (read_array l 1 ;; must) ;;
  times 4 (read_array l 2 ;; must ;; must).

(** xsections.cpp 471-527; h5ObjectExists is tools.cpp 804-806, the link identities 426-468. *)
Definition read_hdf (f : nat) : M unit :=
  h <- h5f_open f ;;
  finally
    (let l := at_ (Some f) h in
     read_array l 1 ;;
     read_array l 1 ;;
     old <- ask ;;
     if old =? 0 then read_flavor l
     else
       fresh <- ask ;;
       if fresh =? 0 then
         (times 3 must ;;
          handle_in l (fun e =>
            read_flavor e ;;
            must ;;
            mu <- ask ;;
            let rest :=
              (must ;; must ;;
               ta <- ask ;;
               if ta =? 0 then ret tt else handle_in l (fun t => read_flavor t)) in
            (if mu =? 0 then ret tt else handle_in l (fun m => read_flavor m)) ;;
            rest))
       else throw)
    (give h).

(** nuSQuIDS.cpp 970-1017, [InitializeInteractions]: the files of the default tables are read
    (xsections.cpp 912-924) when there is no library of cross sections. *)
Fixpoint initialize (files : list nat) : M unit :=
  match files with [] => must | f :: fs => read_hdf f ;; initialize fs end.

(** What a medium or a trajectory does when saved and when loaded.  body.cpp 138-146, 175-187,
    240-256, 352-370, 481-498, 609-626, 736-765. *)
Inductive body :=
| Vacuum | ConstantDensity | VariableDensity | Earth | Sun | SunASnu | EarthAtm
| UserBody (ser : loc -> M unit) (des : loc -> M unit).

Definition serialize_body (b : body) (l : loc) : M unit :=
  match b with
  | Vacuum => add_string_attribute l
  | ConstantDensity => add_string_attribute l ;; times 2 (add_attribute l)
  | VariableDensity | Earth | Sun | SunASnu =>
      add_string_attribute l ;; add_attribute l ;; ask ;; ask ;; ask ;; ret tt
  | EarthAtm =>
      add_string_attribute l ;; add_attribute l ;; ask ;; ask ;; ask ;; times 2 (add_attribute l)
  | UserBody ser _ => ser l
  end.

(** [if(H5Aexists(...)) readH5Attribute(...)]: a failure of H5Aexists is negative, so true too; what it
    answers is 1 when it says no. *)
Definition read_if_there (l : loc) : M unit :=
  e <- ask ;; if e =? 1 then ret tt else read_attribute l.

(** The constructors may throw. *)
Definition deserialize_body (b : body) (l : loc) : M unit :=
  match b with
  | Vacuum => ret tt
  | ConstantDensity => times 2 (read_plain l)
  | VariableDensity | Earth | Sun | SunASnu =>
      read_plain l ;; ask ;; ask ;; ask ;; must
  | EarthAtm =>
      read_plain l ;; ask ;; ask ;; ask ;; times 2 (read_if_there l) ;; must
  | UserBody _ des => des l
  end.

(** body.cpp 146-158, 189-201, 279-291, 421-435, 533-545, 595-607, 709-734.  [TThree]: the tracks of
    Vacuum, ConstantDensity, VariableDensity, Sun and SunASnu. *)
Inductive track := TThree | TEarth | TEarthAtm | UserTrack (ser : loc -> M unit) (des : loc -> M unit).

Definition serialize_track (t : track) (l : loc) : M unit :=
  match t with
  | TThree => add_string_attribute l ;; times 3 (add_attribute l)
  | TEarth => add_string_attribute l ;; times 4 (add_attribute l)
  | TEarthAtm => add_string_attribute l ;; times 6 (add_attribute l)
  | UserTrack ser _ => ser l
  end.

Definition deserialize_track (t : track) (l : loc) : M unit :=
  match t with
  | TThree => times 3 (read_plain l)
  | TEarth => times 4 (read_plain l)
  | TEarthAtm => times 2 (read_attribute l) ;; times 2 (read_if_there l) ;; must
  | UserTrack _ des => des l
  end.

(** A save: is the object complete, the file, overwrite or add, is the group the root, is the place
    of the tables shared, number of flavours, interactions to be written, are they still
    to be initialized and from which files, are the rows padded (total, differential, tau), medium, trajectory, AddToWriteHDF5. *)
Record save := Save {
  s_complete : bool; s_file : nat; s_over : bool; s_root : bool; s_shared : bool; s_numneu : nat;
  s_tables : bool; s_fresh : option (list nat); s_pad_total : bool; s_pad_diff : bool; s_pad_tau : bool;
  s_body : body; s_track : track; s_hook : loc -> M unit }.

(** nuSQuIDS.cpp 1842-1855. *)
Definition write_targets (x : loc) : M unit :=
  handle_mem (handle_in x (fun d => must ;; add_string_attribute d)).

(** nuSQuIDS.cpp 1856-1934 and 1935-2012: two dataspaces, three datasets, and with padded rows
    two dataspaces of memory. *)
Definition write_three (x : loc) (padded : bool) : M unit :=
  handle_mem (
  handle_in x (fun cc =>
  handle_in x (fun nc =>
  handle_mem (
  handle_in x (fun gr =>
    (if padded
     then handle_mem (handle_mem (times 4 must ;; times 3 must))
     else times 3 must) ;;
    add_string_attribute cc ;;
    add_string_attribute nc ;;
    add_string_attribute gr))))).

(** nuSQuIDS.cpp 2014-2058. *)
Definition write_tau (x : loc) (padded : bool) : M unit :=
  handle_mem (
  handle_in x (fun all =>
  handle_in x (fun lep =>
    (if padded
     then handle_mem (times 2 must ;; times 2 must)
     else times 2 must) ;;
    add_string_attribute all ;;
    add_string_attribute lep))).

(** A group opened by hand around a call: nuSQuIDS.cpp 1814-1816, 1818-1820, 2270-2274, 2702-2706.
    The call may throw, and the group is then not closed. *)
Definition raw_group (l : loc) (body : loc -> M unit) : M unit :=
  h <- take_in l ;;
  body (at_ l h) ;;
  give h.

(** nuSQuIDS.cpp 1734-1811: 5 arrays, 12 attributes, two per pair of flavours, one per mass
    difference, two arrays; nothing is looked at. *)
Definition write_plain (n : nat) : M unit :=
  times 17 (ask ;; ret tt) ;;
  times (n * (n - 1)) (ask ;; ret tt) ;;
  times (n - 1) (ask ;; ret tt) ;;
  times 2 (ask ;; ret tt).

(** nuSQuIDS.cpp 1823-2068. *)
Definition write_rest (s : save) (root group : loc) : M unit :=
  (if s_shared s
   then handle (ask ;; take_in root)
   else handle (take_in group)) (fun xh =>
    let x := at_ group xh in
    (if s_tables s
     then
       match s_fresh s with Some files => initialize files | None => ret tt end ;;
       write_targets x ;;
       write_three x (s_pad_total s) ;;
       write_three x (s_pad_diff s) ;;
       write_tau x (s_pad_tau s)
     else ret tt) ;;
    handle_in group (s_hook s)).

(** nuSQuIDS.cpp 1728-2068. *)
Definition write_group (s : save) (root group : loc) : M unit :=
  write_plain (s_numneu s) ;;
  raw_group group (serialize_track (s_track s)) ;;
  raw_group group (serialize_body (s_body s)) ;;
  write_rest s root group.

(** nuSQuIDS.cpp 1685-2068, [WriteStateHDF5]. *)
Definition write_state (s : save) : M unit :=
  if negb (s_complete s) then throw
  else
    h0 <- (if s_over s then h5f_create (s_file s) else h5f_open (s_file s)) ;;
    h <- match h0 with Some _ => ret h0 | None => h5f_create (s_file s) end ;;
    match h with
    | None => throw
    | Some _ =>
        finally
          (handle_in (Some (s_file s)) (fun root =>
             if s_root s then write_group s root root
             else handle_in root (fun group => write_group s root group)))
          (give h)
    end.

(** A load: the file, is the place of the tables shared, the media and trajectories registered,
    AddToReadHDF5. *)
Record load := Load {
  l_file : nat; l_shared : bool; l_bodies : list body; l_tracks : list track; l_hook : loc -> M unit }.

(** nuSQuIDS.cpp 52-73. *)
Definition string_attribute : M nat :=
  must ;;
  rank <- ask ;;
  (if rank =? 1 then ret tt else throw) ;;
  must ;;
  must ;;
  ask.

(** nuSQuIDS.cpp 2344-2353 ([ReadStateHDF5]) and 2138-2145 ([ReadStateHDF5Internal]: [named_first]);
    body.cpp 923-935.  The answer is the place of the name in the list of those registered. *)
Definition read_media (j : load) (named_first : bool) (group : loc) : M unit :=
  let tracks :=
    handle_in group (fun g =>
      n <- string_attribute ;;
      match nth_error (l_tracks j) n with Some t => deserialize_track t g | None => throw end) in
  let found n g := match nth_error (l_bodies j) n with Some b => deserialize_body b g | None => throw end in
  if named_first
  then n <- string_attribute ;; handle_in group (fun g => found n g ;; tracks)
  else handle_in group (fun g => n <- string_attribute ;; found n g ;; tracks).

(** nuSQuIDS.cpp 2090-2252 and 2300-2462: attributes, the two versions, media (by number in files of
    version 100000 and before), energies, [init], parameters, state. *)
Definition read_plain_state (j : load) (named_first : bool) (group : loc) : M unit :=
  n <- ask ;;
  times 7 (ask ;; ret tt) ;;
  must ;;
  must ;;
  old <- ask ;;
  (if old =? 0
   then read_media j named_first group
   else times 6 (ask ;; ret tt) ;; must) ;;
  times 2 (ask ;; ret tt) ;;
  must ;;
  times (n * (n - 1)) (ask ;; must) ;;
  times (n - 1) (ask ;; must) ;;
  must ;;
  times 4 (ask ;; ret tt).

(** nuSQuIDS.cpp 2521-2577 and 2579-2633. *)
Definition read_three (x : loc) : M unit :=
  handle_in x (fun _ => handle_in x (fun _ => handle_in x (fun _ =>
    padded <- ask ;;
    if padded =? 0 then times 3 must
    else handle_mem (handle_mem (times 2 must ;; times 3 must))))).

(** nuSQuIDS.cpp 2635-2690. *)
Definition read_tau (x : loc) : M unit :=
  handle_in x (fun _ => handle_in x (fun _ =>
    rank <- ask ;;
    if rank =? 3 then
      (padded <- ask ;;
       if padded =? 0 then times 2 must
       else handle_mem (must ;; times 2 must))
    else if rank =? 2 then times 3 (ask ;; ret tt)
    else throw)).

(** nuSQuIDS.cpp 2464-2700. *)
Definition read_tables (j : load) (root group : loc) : M unit :=
  handle_in (if l_shared j then root else group) (fun x =>
    old <- ask ;;
    (if old =? 0
     then must ;; handle_in x (fun _ => must)
     else ret tt) ;;
    ask ;; ask ;;
    must ;;
    read_three x ;;
    read_three x ;;
    read_tau x).

(** nuSQuIDS.cpp 2284-2712, [ReadStateHDF5]. *)
Definition read_state (j : load) : M unit :=
  h <- h5f_open (l_file j) ;;
  match h with
  | None => throw
  | Some _ =>
      finally
        (handle_in (Some (l_file j)) (fun root =>
         handle_in root (fun group =>
           inter <- ask ;;
           read_plain_state j false group ;;
           (if inter =? 0 then ret tt else read_tables j root group) ;;
           raw_group group (l_hook j))))
        (give h)
  end.

(** nuSQuIDS.cpp 2078-2282, [ReadStateHDF5Internal]; [given] is whether the tables are given. *)
Definition read_state_internal (j : load) (given : bool) : M unit :=
  h <- h5f_open (l_file j) ;;
  match h with
  | None => throw
  | Some _ =>
      finally
        (handle_in (Some (l_file j)) (fun root =>
         handle_in root (fun group =>
           inter <- ask ;;
           read_plain_state j true group ;;
           (if inter =? 0 then ret tt else if given then ret tt else throw) ;;
           raw_group group (l_hook j))))
        (give h)
  end.

Fixpoint each {A} (l : list A) (m : A -> M unit) : M unit :=
  match l with [] => ret tt | a :: l' => m a ;; each l' m end.

(** nuSQuIDS.h 1511-1544, the ensemble: the file by hand, then every node adds to it. *)
Definition write_atm (f : nat) (ready over : bool) (nodes : list save) : M unit :=
  if negb ready then throw
  else
    h <- (if over then h5f_create f else ask ;; ret None) ;;
    match h with
    | None => throw
    | Some _ =>
        r <- take_in (Some f) ;;
        ask ;; ask ;;
        give r ;;
        give h ;;
        each nodes write_state
    end.

(** nuSQuIDS.h 1550-1603. *)
Definition read_atm (f : nat) (first : load) (given : bool) (others : list load) : M unit :=
  h <- h5f_open f ;;
  match h with
  | None => throw
  | Some _ =>
      finally
        (r <- take_in (Some f) ;;
         times 4 (ask ;; ret tt) ;;
         give r ;;
         read_state first ;;
         each others (fun j => read_state_internal j given))
        (give h)
  end.

(** xsections.cpp 529-539. *)
Definition write_flavor (l : loc) (compress : bool) : M unit := times 8 (write_array l compress).

(** xsections.cpp 557-563. *)
Definition make_alias : M unit := handle_mem (handle_mem must).

(** xsections.cpp 541-587. *)
Definition write_hdf (f : nat) (compress : bool) (tau_same : bool) : M unit :=
  h <- h5f_create f ;;
  finally
    (let l := at_ (Some f) h in
     write_array l compress ;;
     write_array l compress ;;
     handle_in l (fun e => write_flavor e compress) ;;
     make_alias ;;
     (if tau_same then make_alias else handle_in l (fun t => write_flavor t compress)))
    (give h).

(** xsections.cpp 767-778. *)
Definition read_hdf_v1 (f : nat) : M unit :=
  h <- h5f_open f ;;
  finally
    (let l := at_ (Some f) h in
     times 2 (read_attribute l) ;;
     times 2 (read_array l 3) ;;
     times 2 (read_array l 4))
    (give h).

(** xsections.cpp 799-806. *)
Definition write_hdf_v1 (f : nat) : M unit :=
  h <- h5f_create f ;;
  finally
    (let l := at_ (Some f) h in
     times 2 (add_attribute l) ;;
     times 4 (write_array l false))
    (give h).

(** A program which goes on after a failed save. *)
Definition attempt (m : M unit) : M unit := fun o w => (Ret tt, snd (m o w)).
