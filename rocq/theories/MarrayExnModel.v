(** insert and erase of marray at the level of memory cells, with element copies that may throw.
    Source: /repo/include/nuSQuIDS/marray.h.  A cell of a buffer is raw memory, a live object with a value, or a
    moved-from object.  Reading raw memory, constructing over an object, destroying raw memory and moving from a
    moved-from object (its value is unspecified) are all [UB]. Buffers are functions from positions; a position outside the buffer
    is not distinguished from raw memory. *)
From Coq Require Import List Arith Bool.
From Verif Require Import Err.
Import ListNotations.

Inductive cell (V : Type) := Raw | Live (v : V) | Moved.
Arguments Raw {V}. Arguments Live {V} v. Arguments Moved {V}.
Definition buffer (V : Type) := nat -> cell V.
Definition upd {V} (m : buffer V) (p : nat) (c : cell V) : buffer V := fun q => if Nat.eqb q p then c else m q.

(** Element copies that still succeed before one throws; [None]: none throws. *)
Definition budget := option nat.

Section Exn.
Context {V : Type}.

(** "construct(write_pos, std::move( *read_pos))" over n elements, 963-964 and 969-970. Moves are noexcept on this path. *)
Fixpoint move_seg (n : nat) (old new : buffer V) (w r : nat) : outcome (buffer V * buffer V) :=
  match n with
  | 0 => Ok (old, new)
  | S k => match old r, new w with
           | Live v, Raw => move_seg k (upd old r Moved) (upd new w (Live v)) (S w) (S r)
           | _, _ => UB
           end
  end.

(** "construct(write_pos, val)" over n elements, 966-967: each may throw. The boolean says an exception left the loop, the number
    how many elements had been constructed ([new_j]). *)
Fixpoint fill_seg (n : nat) (bud : budget) (val : V) (new : buffer V) (w : nat) : outcome (buffer V * budget * nat * bool) :=
  match n with
  | 0 => Ok (new, bud, 0, false)
  | S k => match bud with
           | Some 0 => Ok (new, bud, 0, true)
           | _ => match new w with
                  | Raw => obind (fill_seg k (match bud with Some (S b) => Some b | _ => bud end) val
                                   (upd new w (Live val)) (S w))
                             (fun '(new', bud', d, t) => Ok (new', bud', S d, t))
                  | _ => UB
                  end
           end
  end.

(** "construct(write_pos, *read_pos)" over n elements, 1019-1020, 1026-1027, 1144-1150: each may throw. *)
Fixpoint copy_seg (n : nat) (bud : budget) (old new : buffer V) (w r : nat) : outcome (buffer V * budget * nat * bool) :=
  match n with
  | 0 => Ok (new, bud, 0, false)
  | S k => match bud with
           | Some 0 => Ok (new, bud, 0, true)
           | _ => match old r, new w with
                  | Live v, Raw => obind (copy_seg k (match bud with Some (S b) => Some b | _ => bud end) old
                                   (upd new w (Live v)) (S w) (S r))
                             (fun '(new', bud', d, t) => Ok (new', bud', S d, t))
                  | _, _ => UB
                  end
           end
  end.

(** "*read_pos=std::move( *write_pos); destroy(write_pos)", 983-986 and 993-996. Assignment needs an object to assign to. *)
Fixpoint back_seg (n : nat) (old new : buffer V) (w r : nat) : outcome (buffer V * buffer V) :=
  match n with
  | 0 => Ok (old, new)
  | S k => match old r, new w with
           | Moved, Live v | Live _, Live v => back_seg k (upd old r (Live v)) (upd new w Raw) (S w) (S r)
           | _, _ => UB
           end
  end.

(** "destroy(write_pos)" over n elements, 988-989, 1031-1032, 1155-1156. *)
Fixpoint destroy_seg (n : nat) (new : buffer V) (w : nat) : outcome (buffer V) :=
  match n with
  | 0 => Ok new
  | S k => match new w with
           | Raw => UB
           | _ => destroy_seg k (upd new w Raw) (S w)
           end
  end.

(** Result of the forward loop: complete, or interrupted in iteration [i] after [j] new elements. *)
Inductive fwd (X : Type) := Done (x : X) | Stopped (i j : nat) (x : X).
Arguments Done {X}. Arguments Stopped {X}.

(** The try block of the moving insert, 961-971; [a]=pos*chunk_size, [n]=num*chunk_size, [b]=remainder*chunk_size;
    [i] is the iteration reached and [its] the number left. *)
Fixpoint ins_fwd (its i a n b : nat) (val : V) (bud : budget) (old new : buffer V) (w r : nat)
  : outcome (fwd (buffer V * buffer V)) :=
  match its with
  | 0 => Ok (Done (old, new))
  | S k =>
      obind (move_seg a old new w r) (fun '(old1, new1) =>
      obind (fill_seg n bud val new1 (w + a)) (fun '(new2, bud2, j, t) =>
      if t then Ok (Stopped i j (old1, new2)) else
      obind (move_seg b old1 new2 (w + a + n) (r + a)) (fun '(old3, new3) =>
      ins_fwd k (S i) a n b val bud2 old3 new3 (w + a + n + b) (r + a + b))))
  end.

(** The catch block, 972-998: [i] whole iterations before the one that was interrupted after [j] new elements. *)
Fixpoint ins_back (i j a n b : nat) (old new : buffer V) (w r : nat) : outcome (buffer V * buffer V) :=
  obind (back_seg a old new w r) (fun '(old1, new1) =>
  match i with
  | 0 => obind (destroy_seg j new1 (w + a)) (fun new2 => Ok (old1, new2))
  | S i' =>
      obind (destroy_seg n new1 (w + a)) (fun new2 =>
      obind (back_seg b old1 new2 (w + a + n) (r + a)) (fun '(old3, new3) =>
      ins_back i' j a n b old3 new3 (w + a + n + b) (r + a + b)))
  end).

(** What a caller sees: either the operation completed (with the buffer that now belongs to the array) or an exception
    was thrown; in both cases the state of both buffers before the old (resp. new) one is released. *)
Inductive attempt := Completed (old new : buffer V) | Threw (old new : buffer V).

(** insert, moving, 948-1003. *)
Definition insert_moving (its a n b : nat) (val : V) (bud : budget) (old : buffer V) : outcome attempt :=
  obind (ins_fwd its 0 a n b val bud old (fun _ => Raw) 0 0) (fun r =>
  match r with
  | Done (old', new') => Ok (Completed old' new')
  | Stopped i j (old', new') => obind (ins_back i j a n b old' new' 0 0) (fun '(old2, new2) => Ok (Threw old2 new2))
  end).

(** The try block of the copying insert, 1016-1028; the result carries [write_pos] when an exception leaves the loop. *)
Fixpoint ins_copy_fwd (its a n b : nat) (val : V) (bud : budget) (old new : buffer V) (w r : nat)
  : outcome (buffer V * option nat) :=
  match its with
  | 0 => Ok (new, None)
  | S k =>
      obind (copy_seg a bud old new w r) (fun '(new1, bud1, j1, t1) =>
      if t1 then Ok (new1, Some (w + j1)) else
      obind (fill_seg n bud1 val new1 (w + a)) (fun '(new2, bud2, j2, t2) =>
      if t2 then Ok (new2, Some (w + a + j2)) else
      obind (copy_seg b bud2 old new2 (w + a + n) (r + a)) (fun '(new3, bud3, j3, t3) =>
      if t3 then Ok (new3, Some (w + a + n + j3)) else
      ins_copy_fwd k a n b val bud3 old new3 (w + a + n + b) (r + a + b))))
  end.
(** insert, copying, 1005-1040. *)
Definition insert_copying (its a n b : nat) (val : V) (bud : budget) (old : buffer V) : outcome attempt :=
  obind (ins_copy_fwd its a n b val bud old (fun _ => Raw) 0 0) (fun '(new, t) =>
  match t with
  | None => Ok (Completed old new)
  | Some w => obind (destroy_seg w new 0) (fun new' => Ok (Threw old new'))
  end).

(** erase with copies, 1142-1158. *)
Fixpoint era_copy_fwd (its a n b : nat) (bud : budget) (old new : buffer V) (w r : nat)
  : outcome (buffer V * option nat) :=
  match its with
  | 0 => Ok (new, None)
  | S k =>
      obind (copy_seg a bud old new w r) (fun '(new1, bud1, j1, t1) =>
      if t1 then Ok (new1, Some (w + j1)) else
      obind (copy_seg b bud1 old new1 (w + a) (r + a + n)) (fun '(new3, bud3, j3, t3) =>
      if t3 then Ok (new3, Some (w + a + j3)) else
      era_copy_fwd k a n b bud3 old new3 (w + a + b) (r + a + n + b)))
  end.
Definition erase_copying (its a n b : nat) (bud : budget) (old : buffer V) : outcome attempt :=
  obind (era_copy_fwd its a n b bud old (fun _ => Raw) 0 0) (fun '(new, t) =>
  match t with
  | None => Ok (Completed old new)
  | Some w => obind (destroy_seg w new 0) (fun new' => Ok (Threw old new'))
  end).

End Exn.
Arguments Done {X}. Arguments Stopped {X}.
Arguments Completed {V}. Arguments Threw {V}.
