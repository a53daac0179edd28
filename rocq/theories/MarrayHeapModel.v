(** Ownership of buffers by marray objects: constructors, assignments, swap, resize and destructor on a heap.
    Source: /repo/include/nuSQuIDS/marray.h. Elements are integers; element copies do not throw here (MarrayExnModel.v has those).
    Allocators are numbers; returning a block through an allocator other than the one it came from is [UB] (C++ allocator requirements),
    and so is freeing a block twice, or with another object count than it holds, and touching a dead variable. *)
From Coq Require Import List Arith ZArith Bool.
From Verif Require Import Err MarrayModel.
Import ListNotations.

(** The members of marray, 386-420: extents, total_size and allocator, data. *)
Record avar := AVar { v_exts : list nat; v_tot : nat; v_ptr : option nat; v_alloc : nat }.
(** A block remembers the allocator it came from and its elements. *)
Record hstate := HState { heap : nat -> option (nat * list Z); hnext : nat; vars : nat -> option avar }.

Definition updf {A} (m : nat -> A) (k : nat) (v : A) : nat -> A := fun q => if Nat.eqb q k then v else m q.

(** Traits propagate_on_container_copy_assignment / move_assignment / swap of the allocator type. *)
Record traits := Traits { pocca : bool; pocma : bool; pocs : bool }.
(** std::allocator: move assignment propagates. aligned_allocator, aligned_alloc.h 51: the same. *)
Definition std_traits := Traits false true false.

Inductive hop :=
| HNew (x al : nat) (es : list nat) (vals : list Z)  (* marray(dims, begin, end, alloc) *)
| HCopy (x y : nat)          (* marray x(y) *)
| HMove (x y : nat)          (* marray x(std::move(y)) *)
| HAssign (x y : nat)        (* x = y *)
| HMoveAssign (x y : nat)    (* x = std::move(y) *)
| HSwap (x y : nat)          (* x.swap(y) *)
| HWrite (x k : nat) (v : Z) (* store through a reference to flat position k *)
| HResize (x dim size : nat) (* x.resize(dim,size) *)
| HDestroy (x : nat).        (* end of lifetime *)

Section H.
Variable tr : traits.

(** destroy_buffer(data,total_size,alloc): destroy the elements and deallocate; a null pointer with no elements is fine. *)
Definition free_buf (h : nat -> option (nat * list Z)) (p : option nat) (tot al : nat) : outcome (nat -> option (nat * list Z)) :=
  match p with
  | None => if Nat.eqb tot 0 then Ok h else UB
  | Some b => match h b with
              | Some (al', d) => if Nat.eqb al' al && Nat.eqb (length d) tot then Ok (updf h b None) else UB
              | None => UB
              end
  end.

(** Elements reachable through [data]. *)
Definition read_buf (h : nat -> option (nat * list Z)) (p : option nat) : outcome (list Z) :=
  match p with
  | None => Ok []
  | Some b => match h b with Some (_, d) => Ok d | None => UB end
  end.

(** data(total_size() ? allocate : nullptr) followed by filling the buffer, 746-775 and 778-788. *)
Definition alloc_nonempty (s : hstate) (al : nat) (d : list Z) : (nat -> option (nat * list Z)) * nat * option nat :=
  match d with
  | [] => (heap s, hnext s, None)
  | _ => (updf (heap s) (hnext s) (Some (al, d)), S (hnext s), Some (hnext s))
  end.

Definition hstep (s : hstate) (o : hop) : outcome hstate :=
  match o with
  | HNew x al es vals =>
      match vars s x with
      | Some _ => UB
      | None => if Nat.eqb (length vals) (prod es) then
                  let '(h, n, p) := alloc_nonempty s al vals in
                  Ok (HState h n (updf (vars s) x (Some (AVar es (length vals) p al))))
                else Throw LogicError
      end
  | HCopy x y =>
      match vars s x, vars s y with
      | None, Some vy =>
          obind (read_buf (heap s) (v_ptr vy)) (fun d =>
          if Nat.eqb (length d) (v_tot vy) then
            let '(h, n, p) := alloc_nonempty s (v_alloc vy) d in
            Ok (HState h n (updf (vars s) x (Some (AVar (v_exts vy) (v_tot vy) p (v_alloc vy)))))
          else UB)
      | _, _ => UB
      end
  | HMove x y => (* 791-798 *)
      match vars s x, vars s y with
      | None, Some vy =>
          Ok (HState (heap s) (hnext s)
                (updf (updf (vars s) x (Some (AVar (v_exts vy) (v_tot vy) (v_ptr vy) (v_alloc vy))))
                      y (Some (AVar (map (fun _ => 0) (v_exts vy)) 0 None (v_alloc vy)))))
      | _, _ => UB
      end
  | HAssign x y => (* 805-812 with copy_assign 483-508 *)
      match vars s x, vars s y with
      | Some vx, Some vy =>
          if Nat.eqb x y then Ok s else
          let al := if pocca tr then v_alloc vy else v_alloc vx in
          obind (read_buf (heap s) (v_ptr vy)) (fun d =>
          if Nat.eqb (length d) (v_tot vy) then
            let h1 := updf (heap s) (hnext s) (Some (al, d)) in
            obind (free_buf h1 (v_ptr vx) (v_tot vx) (v_alloc vx)) (fun h2 =>
            Ok (HState h2 (S (hnext s)) (updf (vars s) x (Some (AVar (v_exts vy) (v_tot vy) (Some (hnext s)) al)))))
          else UB)
      | _, _ => UB
      end
  | HMoveAssign x y => (* 814-821 with move_assign 510-538 *)
      match vars s x, vars s y with
      | Some vx, Some vy =>
          if Nat.eqb x y then Ok s else
          if pocma tr then
            Ok (HState (heap s) (hnext s)
                  (updf (updf (vars s) x (Some (AVar (v_exts vy) (v_tot vy) (v_ptr vy) (v_alloc vy))))
                        y (Some (AVar (v_exts vx) (v_tot vx) (v_ptr vx) (v_alloc vy)))))
          else if Nat.eqb (v_alloc vx) (v_alloc vy) then
            Ok (HState (heap s) (hnext s)
                  (updf (updf (vars s) x (Some (AVar (v_exts vy) (v_tot vy) (v_ptr vy) (v_alloc vx))))
                        y (Some (AVar (v_exts vx) (v_tot vx) (v_ptr vx) (v_alloc vy)))))
          else
            obind (read_buf (heap s) (v_ptr vy)) (fun d =>
            if Nat.eqb (length d) (v_tot vy) then
              let h1 := updf (heap s) (hnext s) (Some (v_alloc vx, d)) in
              obind (free_buf h1 (v_ptr vx) (v_tot vx) (v_alloc vx)) (fun h2 =>
              Ok (HState h2 (S (hnext s)) (updf (vars s) x (Some (AVar (v_exts vy) (v_tot vy) (Some (hnext s)) (v_alloc vx))))))
            else UB)
      | _, _ => UB
      end
  | HSwap x y => (* 916-925 *)
      match vars s x, vars s y with
      | Some vx, Some vy =>
          let ax := if pocs tr then v_alloc vy else v_alloc vx in
          let ay := if pocs tr then v_alloc vx else v_alloc vy in
          Ok (HState (heap s) (hnext s)
                (updf (updf (vars s) x (Some (AVar (v_exts vy) (v_tot vy) (v_ptr vy) ax)))
                      y (Some (AVar (v_exts vx) (v_tot vx) (v_ptr vx) ay))))
      | _, _ => UB
      end
  | HWrite x k v => (* 836-912: a reference into the buffer *)
      match vars s x with
      | Some vx =>
          match v_ptr vx with
          | None => UB
          | Some b => match heap s b with
                      | Some (al, d) => if Nat.ltb k (length d) then
                            Ok (HState (updf (heap s) b (Some (al, set_nth d k v))) (hnext s) (vars s)) else UB
                      | None => UB
                      end
          end
      | None => UB
      end
  | HResize x dim size => (* 930-936 with insert/erase: new buffer filled, old one destroyed; nothing when the size is unchanged *)
      match vars s x with
      | Some vx =>
          obind (read_buf (heap s) (v_ptr vx)) (fun d =>
          match nth_error (v_exts vx) dim with
          | None => UB
          | Some e =>
              if Nat.eqb e size then Ok s else
              obind (resize 0%Z (MArr (v_exts vx) d) dim size) (fun r =>
              let h1 := updf (heap s) (hnext s) (Some (v_alloc vx, flat r)) in
              obind (free_buf h1 (v_ptr vx) (v_tot vx) (v_alloc vx)) (fun h2 =>
              Ok (HState h2 (S (hnext s)) (updf (vars s) x
                   (Some (AVar (exts r) (length (flat r)) (Some (hnext s)) (v_alloc vx)))))))
          end)
      | None => UB
      end
  | HDestroy x => (* 800-803 *)
      match vars s x with
      | Some vx =>
          match v_ptr vx with
          | None => Ok (HState (heap s) (hnext s) (updf (vars s) x None))
          | Some _ => obind (free_buf (heap s) (v_ptr vx) (v_tot vx) (v_alloc vx)) (fun h =>
                      Ok (HState h (hnext s) (updf (vars s) x None)))
          end
      | None => UB
      end
  end.

Fixpoint hrun (s : hstate) (os : list hop) : outcome hstate :=
  match os with [] => Ok s | o :: os' => obind (hstep s o) (fun s' => hrun s' os') end.

End H.
Definition hinit : hstate := HState (fun _ => None) 0 (fun _ => None).
