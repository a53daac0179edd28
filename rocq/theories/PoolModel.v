(** Model of include/nuSQuIDS/ThreadPool.h: worker threads, a task queue, a condition variable.
    Every critical section guarded by queue_mutex is one atomic step; the notifications and joins, which happen
    outside the lock, are steps of their own, so any other thread may run between them.
    Tasks are numbered in the order in which enqueue accepted them.  [body t] is what task [t] returns (or the exception it throws, which
    packaged_task stores in the future as well). *)
From Coq Require Import List Arith Bool.
From Verif Require Import Err.
Import ListNotations.

(** Where a worker is, 62-83: about to lock the mutex and evaluate the wait predicate; asleep in condition.wait (70); running a
    task outside the lock (80); returned (73). *)
Inductive wst := WCheck | WWait | WRun (t : nat) | WExit.

(** The destructor, 112-121: not called; stop is set but notify_all has not happened; joining worker k; returned. *)
Inductive dst := DNone | DStopSet | DJoin (k : nat) | DReturned.

Section Pool.
Context {R : Type}.
Variable body : nat -> outcome R.

Record pstate := PState {
  workers : list wst;
  tasks : list nat;                     (* the queue, front first *)
  stop : bool;
  dtor : dst;
  notifies : nat;                       (* enqueues between unlocking and notify_one *)
  accepted : nat;                       (* number of tasks accepted so far *)
  started : list nat;                   (* tasks popped by a worker, in order *)
  futures : list (nat * outcome R)      (* tasks completed, with the result put in the future *)
}.

Inductive pact :=
| AEnqueue                (* the critical section of enqueue, 98-106 *)
| ANotifyOne (i : nat)    (* notify_one, 107: wakes worker i, which must be waiting *)
| ANotifyNone             (* notify_one when nobody waits *)
| ADestroy                (* 114-117 *)
| ANotifyAll              (* 118 *)
| AJoin                   (* one iteration of 119-120, or leaving the loop *)
| AWork (i : nat)         (* one critical section of worker i, 68-78 *)
| AFinish (i : nat)       (* worker i completes its task, 80 *)
| ASpurious (i : nat).    (* spurious wakeup of a waiting worker *)

Definition setw (l : list wst) (i : nat) (w : wst) : list wst := firstn i l ++ w :: skipn (S i) l.
Definition is_wait (w : wst) : bool := match w with WWait => true | _ => false end.
Definition wake (w : wst) : wst := match w with WWait => WCheck | _ => w end.

(** [None]: the action is not possible in this state. [Throw]: the call made by the action throws; the pool is unchanged. *)
Definition pstep (s : pstate) (a : pact) : option (outcome pstate) :=
  match a with
  | AEnqueue =>
      match dtor s with
      | DReturned => Some UB
      | _ => if stop s then Some (Throw RuntimeError)
             else Some (Ok (PState (workers s) (tasks s ++ [accepted s]) (stop s) (dtor s) (S (notifies s)) (S (accepted s)) (started s) (futures s)))
      end
  | ANotifyOne i =>
      match notifies s, nth_error (workers s) i with
      | S n, Some WWait => Some (Ok (PState (setw (workers s) i WCheck) (tasks s) (stop s) (dtor s) n (accepted s) (started s) (futures s)))
      | _, _ => None
      end
  | ANotifyNone =>
      match notifies s with
      | S n => if existsb is_wait (workers s) then None
               else Some (Ok (PState (workers s) (tasks s) (stop s) (dtor s) n (accepted s) (started s) (futures s)))
      | 0 => None
      end
  | ADestroy =>
      match dtor s with
      | DNone => Some (Ok (PState (workers s) (tasks s) true DStopSet (notifies s) (accepted s) (started s) (futures s)))
      | _ => None
      end
  | ANotifyAll =>
      match dtor s with
      | DStopSet => Some (Ok (PState (map wake (workers s)) (tasks s) (stop s) (DJoin 0) (notifies s) (accepted s) (started s) (futures s)))
      | _ => None
      end
  | AJoin =>
      match dtor s with
      | DJoin k =>
          match nth_error (workers s) k with
          | None => Some (Ok (PState (workers s) (tasks s) (stop s) DReturned (notifies s) (accepted s) (started s) (futures s)))
          | Some WExit => Some (Ok (PState (workers s) (tasks s) (stop s) (DJoin (S k)) (notifies s) (accepted s) (started s) (futures s)))
          | Some _ => None
          end
      | _ => None
      end
  | AWork i =>
      match nth_error (workers s) i with
      | Some WCheck =>
          match tasks s with
          | [] => Some (Ok (PState (setw (workers s) i (if stop s then WExit else WWait)) [] (stop s) (dtor s) (notifies s) (accepted s) (started s) (futures s)))
          | t :: ts => Some (Ok (PState (setw (workers s) i (WRun t)) ts (stop s) (dtor s) (notifies s) (accepted s) (started s ++ [t]) (futures s)))
          end
      | _ => None
      end
  | AFinish i =>
      match nth_error (workers s) i with
      | Some (WRun t) => Some (Ok (PState (setw (workers s) i WCheck) (tasks s) (stop s) (dtor s) (notifies s) (accepted s) (started s) (futures s ++ [(t, body t)])))
      | _ => None
      end
  | ASpurious i =>
      match nth_error (workers s) i with
      | Some WWait => Some (Ok (PState (setw (workers s) i WCheck) (tasks s) (stop s) (dtor s) (notifies s) (accepted s) (started s) (futures s)))
      | _ => None
      end
  end.

(** The constructor, 59-84. *)
Definition pinit (n : nat) : pstate := PState (repeat WCheck n) [] false DNone 0 0 [] [].

(** Executions: any sequence of possible actions. A throwing enqueue leaves the pool as it was. *)
Inductive reach (n : nat) : pstate -> Prop :=
| reach_init : reach n (pinit n)
| reach_ok s a s' : reach n s -> pstep s a = Some (Ok s') -> reach n s'.

End Pool.
Arguments pstate : clear implicits.
