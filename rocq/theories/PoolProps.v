(** Properties C12 and C13: the thread pool, under every interleaving. *)
From Coq Require Import List Arith Bool Lia.
From Verif Require Import Err PoolModel PoolProofs.
Import ListNotations.

(** A small program used in the examples: two workers, three tasks. *)
Definition body3 (t : nat) : outcome nat := if Nat.eqb t 1 then Throw OtherExn else Ok (10 * t).
Fixpoint prun (s : pstate nat) (acts : list pact) : option (pstate nat) :=
  match acts with [] => Some s | a :: r => match pstep body3 s a with Some (Ok s') => prun s' r | _ => None end end.
Lemma prun_reach n acts : forall s s', reach body3 n s -> prun s acts = Some s' -> reach body3 n s'.
Proof.
  induction acts as [|a acts IH]; intros s s' Hr H; cbn in H; [congruence|].
  destruct (pstep body3 s a) as [[s1| |]|] eqn:E; try discriminate. apply (IH s1); trivial. now apply reach_ok with s a.
Qed.
Definition sched : list pact :=
  [AWork 0; AEnqueue; AWork 1; AEnqueue; ANotifyOne 0; AEnqueue; AWork 0; ADestroy; AFinish 0; AWork 0; AFinish 1;
   ANotifyNone; ANotifyAll; AWork 1; ANotifyNone; AFinish 0; AWork 0; AJoin; AJoin; AJoin].

(** ** C12 *)
(** At any moment of any execution the tasks taken by workers are exactly the first ones accepted, each once, in the order of acceptance, and
    the rest are still queued. *)
Theorem c12_in_order_at_most_once : forall (R : Type) (body : nat -> outcome R) n s, reach body n s ->
  NoDup (started s) /\ started s = seq 0 (length (started s)) /\ length (started s) + length (tasks s) = accepted s.
Proof. intros R. exact (@started_once R). Qed.
(** When the destructor has returned, every accepted task has run, its future holds what the task gave (a value or an exception), and no future
    was set twice. *)
Theorem c12_all_run_on_shutdown : forall (R : Type) (body : nat -> outcome R) n s, reach body n s -> 0 < n -> dtor s = DReturned ->
  started s = seq 0 (accepted s) /\ (forall t, t < accepted s -> In (t, body t) (futures s)) /\ NoDup (map fst (futures s)).
Proof. intros R. exact (@all_run R). Qed.
Example c12_nonvacuous : exists s, reach body3 2 s /\ dtor s = DReturned /\ accepted s = 3 /\ started s = [0; 1; 2] /\
  In (1, Throw OtherExn) (futures s).
Proof.
  destruct (prun (pinit 2) sched) as [s|] eqn:E; [|vm_compute in E; discriminate].
  exists s. split; [apply (prun_reach 2 sched (pinit 2)); [constructor|exact E]|].
  vm_compute in E. injection E as <-. repeat split. cbn. tauto.
Qed.
Print Assumptions c12_in_order_at_most_once.
Print Assumptions c12_all_run_on_shutdown.
(** With no worker (a pool of size 0) an accepted task is never run. *)
Theorem c12_zero_workers_refuted : exists s, reach body3 0 s /\ dtor s = DReturned /\ accepted s = 1 /\ futures s = [].
Proof.
  destruct (prun (pinit 0) [AEnqueue; ANotifyNone; ADestroy; ANotifyAll; AJoin]) as [s|] eqn:E; [|vm_compute in E; discriminate].
  exists s. split; [eapply prun_reach; [constructor|exact E]|]. vm_compute in E. injection E as <-. repeat split.
Qed.
Print Assumptions c12_zero_workers_refuted.

(** ** C13 *)
(** After shutdown has begun enqueue throws and changes nothing. *)
Theorem c13_no_accept_after_stop : forall (R : Type) (body : nat -> outcome R) n s, reach body n s -> stop s = true ->
  pstep body s AEnqueue = Some (Throw RuntimeError) \/ dtor s = DReturned.
Proof. intros R. exact (@no_accept_after_stop R). Qed.
(** While a worker sleeps, every queued task has a notification on its way or an awake worker about to look at the queue. *)
Theorem c13_no_lost_wakeup : forall (R : Type) (body : nat -> outcome R) n s i, reach body n s ->
  nth_error (workers s) i = Some WWait -> tasks s <> [] ->
  0 < notifies s \/ exists j, nth_error (workers s) j = Some WCheck.
Proof.
  intros R body n s i Hr Hi Ht. pose proof (no_lost_wakeup body n s i Hr Hi) as H.
  destruct (tasks s) as [|t ts]; [congruence|]. cbn in H. destruct (notifies s); [right|left; lia].
  apply checking_pos. lia.
Qed.
(** The count behind it: as many notifications and awake workers as queued tasks. *)
Theorem c13_wakeups_cover_tasks : forall (R : Type) (body : nat -> outcome R) n s i, reach body n s ->
  nth_error (workers s) i = Some WWait -> length (tasks s) <= notifies s + wsum checking (workers s).
Proof. intros R. exact (@no_lost_wakeup R). Qed.
(** After shutdown has begun: until the destructor has returned some thread of the pool can step (no client call and no spurious wakeup needed), and however the
    steps are scheduled there are at most [measure s] of them, so the destructor returns under every schedule. *)
Theorem c13_shutdown_progress : forall (R : Type) (body : nat -> outcome R) n s, reach body n s -> stop s = true -> dtor s <> DReturned ->
  exists a s', internal a = true /\ pstep body s a = Some (Ok s').
Proof. intros R. exact (@internal_enabled R). Qed.
Theorem c13_shutdown_terminates : forall (R : Type) (body : nat -> outcome R) n s, reach body n s -> stop s = true ->
  (forall k s', irun body s k s' -> k <= measure s) /\ (exists k s', irun body s k s' /\ dtor s' = DReturned).
Proof.
  intros R body n s Hr Hs. split.
  - intros k s' Hk. destruct (irun_bound body n s k s' Hk Hr Hs). lia.
  - now apply (shutdown_completes body n (measure s) s).
Qed.
Example c13_nonvacuous : exists s, reach body3 2 s /\ nth_error (workers s) 0 = Some WWait /\ tasks s = [0] /\ stop s = true /\ dtor s <> DReturned /\
  notifies s = 1.
Proof.
  destruct (prun (pinit 2) [AWork 0; AWork 1; AEnqueue; ADestroy]) as [s|] eqn:E; [|vm_compute in E; discriminate].
  exists s. split; [eapply prun_reach; [constructor|exact E]|]. vm_compute in E. injection E as <-. repeat split. discriminate.
Qed.
Print Assumptions c13_no_accept_after_stop.
Print Assumptions c13_no_lost_wakeup.
Print Assumptions c13_wakeups_cover_tasks.
Print Assumptions c13_shutdown_progress.
Print Assumptions c13_shutdown_terminates.
