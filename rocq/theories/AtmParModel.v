(** Model of the threaded branch of nuSQUIDSAtm::EvolveState, include/nuSQuIDS/nuSQuIDS.h:1305-1320: the main thread hands
    one task per zenith node to a ThreadPool (PoolModel), waits for the futures in turn and destroys the pool.

    Each task works on its own node ([nsq] is captured by reference, 1311) in small steps; between any two of them any other
    thread may run.  What a step does depends only on that node: the tables (int_struct) and the medium (earth_atm), which the
    nodes share, are only read during an evolution and are part of the step function.  Allocation, printing and the progress
    bar are left out. *)
From Coq Require Import List Arith Bool.
From Verif Require Import Err PoolModel.
Import ListNotations.

(** The main thread: [MEnq k] — [k] tasks handed over (1310-1311); [MWait k] — the first [k] futures waited for (1313-1317);
    [MDtor] — in the pool's destructor (1319), or past it. *)
Inductive mainpc := MEnq (k : nat) | MWait (k : nat) | MDtor.

Inductive xact :=
| XPool (a : pact)    (* a step of the pool itself *)
| XTask (i : nat)     (* worker [i] makes one step of its task *)
| XEnq                (* 1311 *)
| XWait               (* 1314, or leaving one of the two loops *)
| XDtor.              (* the destructor begins *)

(** steps of the pool that are not calls of the main thread *)
Definition own_act (a : pact) : bool := match a with AEnqueue | ADestroy => false | _ => true end.

Section Par.
Context {N R : Type}.
Variable lstep : nat -> N -> option N.   (* one step of task [t]; [None]: it has ended *)
Variable out : N -> outcome R.           (* how it ended *)
Variable n : nat.                        (* number of zenith nodes *)

Record xstate := XState { x_pool : pstate R; x_cells : nat -> N; x_main : mainpc }.

Definition upd {A} (f : nat -> A) (t : nat) (v : A) : nat -> A := fun u => if Nat.eqb u t then v else f u.

(** is the future of task [t] ready *)
Definition ready (p : pstate R) (t : nat) : bool := existsb (fun e => Nat.eqb (fst e) t) (futures p).

(** may worker [i] complete its task *)
Definition may_finish (s : xstate) (a : pact) : bool :=
  match a with
  | AFinish i => match nth_error (workers (x_pool s)) i with
    | Some (WRun t) => match lstep t (x_cells s t) with None => true | Some _ => false end
    | _ => false end
  | _ => true
  end.

(** a completed task puts what its node ended with in its future *)
Definition pool_step (s : xstate) (a : pact) (m : mainpc) : option xstate :=
  match pstep (fun t => out (x_cells s t)) (x_pool s) a with
  | Some (Ok p) => Some (XState p (x_cells s) m)
  | _ => None
  end.

Definition xstep (s : xstate) (a : xact) : option xstate :=
  match a with
  | XPool a => if own_act a && may_finish s a then pool_step s a (x_main s) else None
  | XTask i =>
    match nth_error (workers (x_pool s)) i with
    | Some (WRun t) => match lstep t (x_cells s t) with
      | Some c => Some (XState (x_pool s) (upd (x_cells s) t c) (x_main s))
      | None => None end
    | _ => None
    end
  | XEnq => match x_main s with
    | MEnq k => if Nat.ltb k n then pool_step s AEnqueue (MEnq (S k)) else None
    | _ => None end
  | XWait => match x_main s with
    | MEnq k => if Nat.ltb k n then None else Some (XState (x_pool s) (x_cells s) (MWait 0))
    | MWait k => if Nat.ltb k n && ready (x_pool s) k then Some (XState (x_pool s) (x_cells s) (MWait (S k))) else None
    | MDtor => None end
  | XDtor => match x_main s with
    | MWait k => if Nat.ltb k n then None else pool_step s ADestroy MDtor
    | _ => None end
  end.

(** 1308-1309: a pool of [w] workers *)
Definition xinit (w : nat) (c : nat -> N) : xstate := XState (pinit w) c (MEnq 0).

Inductive xreach (w : nat) (c : nat -> N) : xstate -> Prop :=
| xr_init : xreach w c (xinit w c)
| xr_step s a s' : xreach w c s -> xstep s a = Some s' -> xreach w c s'.

(** the call is over *)
Definition returned (s : xstate) : Prop := dtor (x_pool s) = DReturned.

(** A task alone: [runs t k c c'] — after [k] steps it has ended and left [c']. *)
Inductive runs (t : nat) : nat -> N -> N -> Prop :=
| runs_end c : lstep t c = None -> runs t 0 c c
| runs_step k c c1 c' : lstep t c = Some c1 -> runs t k c1 c' -> runs t (S k) c c'.

(** The nodes evolved one after the other (1294-1304). *)
Inductive serial : nat -> (nat -> N) -> (nat -> N) -> Prop :=
| ser_0 c : serial 0 c c
| ser_S m c c1 k v : serial m c c1 -> runs m k (c1 m) v -> serial (S m) c (upd c1 m v).

End Par.
Arguments xstate : clear implicits.
