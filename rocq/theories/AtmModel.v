(** Model of nuSQUIDSAtm (include/nuSQuIDS/nuSQuIDS.h:1069-1929) on top of the objects of StateModel: one node per zenith
    angle, setters that go over all nodes, setting the state, evolution.

    Left out: the progress bar, the random number generator, the solver settings that only SQuIDS reads (except the step),
    the low-pass settings, track_array (written by the constructor and never read).  Reading a state is in AtmFileModel, evaluation in AtmEvalModel, the
    threads of the parallel branch in AtmParModel. *)
From Coq Require Import Reals List Arith Bool.
From Verif Require Import IntModel XsModel StateModel.
Import ListNotations.

(** iinistate and evalThreads are not set by every constructor ([None]: never written). *)
Record atm := Atm {
  a_ini : option bool;
  a_made : bool;                  (* inusquidsatm *)
  a_cos : list R;
  a_E : list R;
  a_nodes : list nus;
  a_earth : option body;
  a_ncs : option xslib;
  a_tabs : option tabs;           (* int_struct *)
  a_threads : option nat }.

Definition with_nodes (l : list nus) (a : atm) : atm :=
  Atm (a_ini a) (a_made a) (a_cos a) (a_E a) l (a_earth a) (a_ncs a) (a_tabs a) (a_threads a).
Definition with_ini (b : bool) (a : atm) : atm :=
  Atm (Some b) (a_made a) (a_cos a) (a_E a) (a_nodes a) (a_earth a) (a_ncs a) (a_tabs a) (a_threads a).
Definition with_earth (b : option body) (a : atm) : atm :=
  Atm (a_ini a) (a_made a) (a_cos a) (a_E a) (a_nodes a) b (a_ncs a) (a_tabs a) (a_threads a).
Definition with_ncs (x : option xslib) (a : atm) : atm :=
  Atm (a_ini a) (a_made a) (a_cos a) (a_E a) (a_nodes a) (a_earth a) x (a_tabs a) (a_threads a).
Definition with_tabs (t : option tabs) (a : atm) : atm :=
  Atm (a_ini a) (a_made a) (a_cos a) (a_E a) (a_nodes a) (a_earth a) (a_ncs a) t (a_threads a).
Definition with_threads (k : nat) (a : atm) : atm :=
  Atm (a_ini a) (a_made a) (a_cos a) (a_E a) (a_nodes a) (a_earth a) (a_ncs a) (a_tabs a) (Some k).

(** A loop over the nodes; an exception leaves the later ones alone. *)
Fixpoint each (f : nat -> M) (i : nat) (l : list nus) : res * list nus :=
  match l with
  | [] => (Done, [])
  | s :: l' =>
    match f i s with
    | (Done, s', _) => let (r, l2) := each f (S i) l' in (r, s' :: l2)
    | (r, s', _) => (r, s' :: l')
    end
  end.

(** The setters that go over all nodes: 1607-1870, 1901-1929. *)
Inductive bset :=
| BAngle (i j : nat) (v : R) | BPhase (i j : nat) (v : R) | BDm (i : nat) (v : R) | BDefaults
| BTau (b : bool) | BGlashow (b : bool) | BOsc (b : bool) | BConst (b : bool) | BPos (b : bool)
| BScale (v : R) | BSources (b : bool).

Definition node_call (c : bset) : call :=
  match c with
  | BAngle i j v => CAngle i j v | BPhase i j v => CPhase i j v | BDm i v => CDm i v
  | BDefaults => CDefaults | BTau b => CTau b | BGlashow b => CGlashow b | BOsc b => COsc b
  | BConst b => CConst b | BPos b => CPos b | BScale v => CScale v | BSources b => CSources b
  end.

Inductive acall :=
| ASet (c : bset)
| AEarth (b : option body)                                        (* 1894-1899 *)
| AXs (x : option xslib)                                          (* 1907-1911 *)
| AStep (h : R)                                                   (* 1665-1668 *)
| AStepAt (h : R) (idx : nat)                                     (* 1673-1675 *)
| AInit3 (d0 d1 d2 : nat) (v : nat -> nat -> nat -> R) (b : basis)
| AInit4 (d0 d1 d2 d3 : nat) (v : nat -> nat -> nat -> nat -> R) (b : basis)
| AEvolve
| AThreads (k hw : nat)                                           (* [hw]: what hardware_concurrency returns *)
| ANode (i : nat) (c : call).                                     (* a call on GetnuSQuIDS(i) *)

Section Atm.
Variable e : env.

(** ** Evolution — 1277-1322 *)

(** 1278-1281; reading a member that was never written is undefined *)
Definition a_guard (a : atm) : res :=
  match a_ini a with
  | None => Undef Uninit
  | Some false => Threw
  | Some true => if a_made a then Done else Threw
  end.

(** 1283-1291 *)
Definition share_tables (a : atm) : res * atm :=
  match a_nodes a with
  | [] => (Undef OutOfBounds, a)
  | s0 :: rest =>
    if o_int (q_opts s0) then
      match init_interactions e s0 with
      | (Done, s0', _) =>
        let t := i_tabs (q_ints s0') in
        let (r, l) := each (fun _ => (modify (put_i_tabs t) ;; init_interactions e)%m) 0 (s0' :: rest) in
        (r, with_tabs t (with_nodes l a))
      | (r, s0', _) => (r, with_nodes (s0' :: rest) a)
      end
    else (Done, a)
  end.

(** 1293-1304 *)
Definition evolve_serial (l : list nus) : res * list nus := each (fun _ => evolve_state e) 0 l.

(** 1305-1320: every node is evolved by some thread, what its task threw stays in a future that is only waited for; what
    is undefined in one task is undefined for the program (AtmParModel is the model with threads) *)
Definition first_undef (l : list res) : res :=
  fold_right (fun r acc => match r with Undef u => Undef u | _ => acc end) Done l.
Definition evolve_parallel (l : list nus) : res * list nus :=
  let rs := map (fun s => fst (evolve_state e s)) l in (first_undef (map fst rs), map snd rs).

Definition a_evolve (a : atm) : res * atm :=
  match a_guard a with
  | Done =>
    match share_tables a with
    | (Done, a1) =>
      match a_threads a1 with
      | None => (Undef Uninit, a1)
      | Some k =>
        let (r, l) := if Nat.eqb k 1 then evolve_serial (a_nodes a1) else evolve_parallel (a_nodes a1) in
        (r, with_nodes l a1)
      end
    | other => other
    end
  | r => (r, a)
  end.

(** ** The state — 1224-1243, 1258-1274 *)

Definition a_fill (f : nat -> M) (a : atm) : res * atm :=
  match each f 0 (a_nodes a) with
  | (Done, l) => (Done, with_ini true (with_nodes l a))
  | (r, l) => (r, with_nodes l a)
  end.

(** [d0 … ] are the extents of the array given *)
Definition a_init3 (d0 d1 d2 : nat) (v : nat -> nat -> nat -> R) (b : basis) (a : atm) : res * atm :=
  if negb (Nat.eqb d0 (length (a_cos a))) then (Threw, a)
  else if negb (Nat.eqb d1 (length (a_E a))) then (Threw, a)
  else a_fill (fun i => init_state2 e d1 d2 (v i) b) a.

Definition a_init4 (d0 d1 d2 d3 : nat) (v : nat -> nat -> nat -> nat -> R) (b : basis) (a : atm) : res * atm :=
  if negb (Nat.eqb d0 (length (a_cos a))) then (Threw, a)
  else a_fill (fun i => init_state3 e d1 d2 d3 (v i) b) a.

(** ** The interface *)

(** 1876-1883 *)
Definition threads_for (k hw : nat) : nat :=
  if Nat.eqb k 0 then (if Nat.eqb hw 0 then 1%nat else hw) else k.

Fixpoint set_nth {A} (l : list A) (i : nat) (v : A) : list A :=
  match l, i with
  | [], _ => []
  | _ :: l', O => v :: l'
  | x :: l', S i' => x :: set_nth l' i' v
  end.

Definition on_all (m : M) (a : atm) : res * atm :=
  let (r, l) := each (fun _ => m) 0 (a_nodes a) in (r, with_nodes l a).

Definition aexec (c : acall) (a : atm) : res * atm :=
  match c with
  | ASet c => on_all (exec e (node_call c)) a
  | AEarth b => on_all (set_body b) (with_earth b a)
  | AXs x => on_all (set_xs x) (with_ncs x a)
  | AStep h => on_all (modify (put_sq_h h)) a
  | AStepAt h i =>
    match nth_error (a_nodes a) i with
    | Some s => (Done, with_nodes (set_nth (a_nodes a) i (put_sq_h h s)) a)
    | None => (Undef OutOfBounds, a)
    end
  | AInit3 d0 d1 d2 v b => a_init3 d0 d1 d2 v b a
  | AInit4 d0 d1 d2 d3 v b => a_init4 d0 d1 d2 d3 v b a
  | AEvolve => a_evolve a
  | AThreads k hw => (Done, with_threads (threads_for k hw) a)
  | ANode i c =>
    match nth_error (a_nodes a) i with
    | Some s => match exec e c s with (r, s', _) => (r, with_nodes (set_nth (a_nodes a) i s') a) end
    | None => (Threw, a)
    end
  end.

(** ** Construction — 1126-1153

    [track_of c] is the trajectory MakeTrackWithCosine makes.  std::vector moves the nodes it already holds when it grows;
    [grow i] tells whether it does so when node [i] is added. *)
Fixpoint make_nodes (track_of : R -> track) (grow : nat -> bool) (earth : body) (E : list R) (numneu : nat) (t : nt)
    (iint : bool) (x : option xslib) (i : nat) (cos : list R) (acc : list nus) : res * list nus :=
  match cos with
  | [] => (Done, acc)
  | c :: cos' =>
    match make_multi e E numneu t iint x with
    | (Done, s, _) =>
      let acc1 := if grow i then map move_ctor acc else acc in
      match (set_body (Some earth) ;; set_track (Some (track_of c)))%m s with
      | (Done, s', _) => make_nodes track_of grow earth E numneu t iint x (S i) cos' (acc1 ++ [s'])
      | (r, _, _) => (r, acc1)
      end
    | (r, _, _) => (r, acc)
    end
  end.

Definition make_atm (track_of : R -> track) (grow : nat -> bool) (earth : body) (cos E : list R) (numneu : nat) (t : nt)
    (iint : bool) (x : option xslib) : res * option atm :=
  match make_nodes track_of grow earth E numneu t iint x 0 cos [] with
  | (Done, s0 :: l) =>
    (Done, Some (Atm None true cos (q_E s0) (s0 :: l) (Some earth) (i_ncs (q_ints s0)) None (Some 1%nat)))
  | (Done, []) => (Undef OutOfBounds, None)
  | (r, _) => (r, None)
  end.

(** Moving — 1169-1209: the destination has all the members modelled here, the source is marked unusable. *)
Definition a_moved_from (a : atm) : atm :=
  Atm (a_ini a) false (a_cos a) (a_E a) [] None None None (a_threads a).

(** Construction from a file — 1160-1166: only the random number generator is set up before ReadStateHDF5 (1550-1604), which
    sets the grids, the nodes it read, their tables and medium and both flags; the number of threads and the cross sections
    are left as they were. *)
Definition a_blank : atm := Atm None false [] [] [] None None None None.
Definition a_read (cos E : list R) (nodes : list nus) (earth : option body) (t : option tabs) (a : atm) : atm :=
  Atm (Some true) true cos E nodes earth (a_ncs a) t (a_threads a).

(** The object after a history of calls none of which was undefined; [made_atm] for a new one. *)
Inductive made_atm : atm -> Prop :=
| made_new track_of grow earth cos E numneu t iint x a :
    make_atm track_of grow earth cos E numneu t iint x = (Done, Some a) -> made_atm a.

Inductive ahist (a0 : atm) : list (acall * res) -> atm -> Prop :=
| ah_nil : ahist a0 [] a0
| ah_call h a c r a' :
    ahist a0 h a -> aexec c a = (r, a') -> (forall u, r <> Undef u) -> ahist a0 ((c, r) :: h) a'.

End Atm.
