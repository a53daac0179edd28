(** Model of include/nuSQuIDS/marray.h: the multidimensional array.
    An array is its extents and its flat contents.  [std::array<size_t,Rank> extents] is a list whose
    length is the rank; the buffer [data] of [total_size()] elements is a list.  Allocators are not
    modelled here (see MarrayHeapModel.v for ownership of buffers).
    Sizes are [nat]; the places where the code narrows an intermediate product to [unsigned int] or [int],
    or where size_t can wrap, are written out with [Z] and [mod]. *)
From Coq Require Import List Arith ZArith Lia Bool.
From Verif Require Import Err.
Import ListNotations.

Record marray (A : Type) := MArr { exts : list nat; flat : list A }.
Arguments MArr {A}. Arguments exts {A}. Arguments flat {A}.

(** Product of extents, exact. *)
Fixpoint prod (l : list nat) : nat := match l with [] => 1 | e :: l' => e * prod l' end.

(** The class invariant kept by constructors: total_size() is the product of the extents. *)
Definition wf {A} (a : marray A) : Prop := length (flat a) = prod (exts a).

(** An index tuple is in range. *)
Fixpoint valid (es idx : list nat) : Prop :=
  match es, idx with
  | [], [] => True
  | e :: es', i :: is' => i < e /\ valid es' is'
  | _, _ => False
  end.

(* ------------------------------------------------------------------ *)
(** ** Subscripting *)

(** Chained subscripts: marray.h 836-842 [operator[](size_type)] makes a [subscript_proxy] (254-288) from the
    first index; each proxy multiplies the offset so far by the next extent (262, 275) and each further
    [operator[]] adds its index (264-266, 277-279).  For rank 1 the element at data+i is returned (291-297). *)
Fixpoint chain_from (off : nat) (es idx : list nat) : nat :=
  match es, idx with
  | e :: es', i :: is' => chain_from (off * e + i) es' is'
  | _, _ => off
  end.
Definition chain_offset (es idx : list nat) : nat :=
  match es, idx with
  | _ :: es', i :: is' => chain_from i es' is'
  | _, _ => 0
  end.

Definition two31 : Z := (2 ^ 31)%Z.
Definition two32 : Z := (2 ^ 32)%Z.
Definition two64 : Z := (2 ^ 64)%Z.

(** Conversion of a size_t to [int] (two's complement, as on every supported platform). *)
Definition to_int (x : Z) : Z := ((x + two31) mod two32 - two31)%Z.
(** Conversion of an [int] to size_t, and size_t arithmetic. *)
Definition to_size (x : Z) : Z := (x mod two64)%Z.

(** [std::accumulate(b,e,1,std::multiplies<size_type>())] at 851, 867, 885, 903: the initial value 1 has type
    int, so each partial product is converted to int. *)
Definition acc_int (l : list nat) : Z :=
  fold_left (fun acc e => to_int (to_size (to_size acc * Z.of_nat e))) l 1%Z.

(** The loop over the indices, 852-858: [rest] are the extents not yet divided out of [stride].
    Division by a zero extent is undefined behaviour. *)
Fixpoint container_loop (off stride : Z) (rest idx : list nat) : outcome Z :=
  match idx with
  | [] => Ok off
  | i :: is' =>
      let off' := to_size (off + to_size (Z.of_nat i * stride)) in
      match rest with
      | [] => container_loop off' stride [] is'
      | e :: rest' => if Nat.eqb e 0 then UB
                      else container_loop off' (stride / Z.of_nat e)%Z rest' is'
      end
  end.
(** Container and initializer_list subscripts, 846-912. [assert(indices.size()==Rank)] is a precondition:
    another number of indices is reported as UB (asserts are compiled out in release builds). *)
Definition container_offset (es idx : list nat) : outcome Z :=
  if Nat.eqb (length idx) (length es)
  then container_loop 0 (to_size (acc_int (tl es))) (tl es) idx
  else UB.

Definition get_chain {A} (a : marray A) (idx : list nat) : outcome A :=
  match nth_error (flat a) (chain_offset (exts a) idx) with Some v => Ok v | None => UB end.
Definition get_container {A} (a : marray A) (idx : list nat) : outcome A :=
  match container_offset (exts a) idx with
  | Ok off => match nth_error (flat a) (Z.to_nat off) with Some v => Ok v | None => UB end
  | Throw e => Throw e
  | UB => UB
  end.

(** [getCoordinate], 1308-1315, for the iterator at position [off] and dimension [dim]. Division by zero is UB. *)
Fixpoint coord_loop (off divisor : nat) (es : list nat) (dim : nat) : outcome nat :=
  match es with
  | [] => UB                       (* extents[dim] with dim>=Rank *)
  | e :: es' =>
      if Nat.eqb e 0 then UB else
      let d' := divisor / e in
      match dim with
      | 0 => if Nat.eqb d' 0 then UB else Ok (off / d')
      | S k => if Nat.eqb d' 0 then UB else coord_loop (off mod d') d' es' k
      end
  end.
Definition getCoordinate {A} (a : marray A) (off dim : nat) : outcome nat :=
  coord_loop off (length (flat a)) (exts a) dim.

(* ------------------------------------------------------------------ *)
(** ** Construction *)

(** [compute_total_size], 1326-1330: throws unless the number of extents is the rank; the product is formed in
    unsigned long (64 bit). *)
Definition prod64 (l : list nat) : Z := fold_left (fun acc e => ((acc * Z.of_nat e) mod two64)%Z) l 1%Z.
Definition compute_total_size (rank : nat) (dims : list nat) : outcome Z :=
  if Nat.eqb (length dims) rank then Ok (prod64 dims) else Throw LogicError.

(** Iterator range constructor, 756-775: throws when the range does not have total_size() elements. *)
Definition ctor_range {A} (rank : nat) (dims : list nat) (init : list A) : outcome (marray A) :=
  obind (compute_total_size rank dims) (fun n =>
    if Z.eqb (Z.of_nat (length init)) n then Ok (MArr dims init) else Throw LogicError).

(** Size-only constructors, 658-695: [dflt] is the value-initialised element. *)
Definition ctor_sized {A} (dflt : A) (rank : nat) (dims : list nat) : outcome (marray A) :=
  obind (compute_total_size rank dims) (fun n => Ok (MArr dims (repeat dflt (Z.to_nat n)))).

(** Nested initializers, 304-311: the type of an initializer for the given extents. *)
Fixpoint nested (A : Type) (rank : nat) : Type :=
  match rank with 0 => A | S r => list (nested A r) end.

(** [initializer_shape_checker], 313-336. The list of extents gives the dimensions still to be checked. *)
Fixpoint shape_ok {A} (es : list nat) : nested A (length es) -> bool :=
  match es with
  | [] => fun _ => true
  | e :: es' => fun init => Nat.eqb (length init) e && forallb (shape_ok es') init
  end.
(** [multidimensional_initializer], 338-359: elements are written in nesting order. *)
Fixpoint flatten {A} (rank : nat) : nested A rank -> list A :=
  match rank with
  | 0 => fun x => [x]
  | S r => fun init => flat_map (flatten r) init
  end.
(** Constructor from extents and nested initializer, 727-744.  When the 64-bit product wraps and the check passes
    the writes run past the allocated buffer: UB. *)
Definition ctor_nested {A} (dims : list nat) (init : nested A (length dims)) : outcome (marray A) :=
  if shape_ok dims init
  then if Z.eqb (Z.of_nat (length (flatten _ init))) (prod64 dims)
       then Ok (MArr dims (flatten _ init)) else UB
  else Throw LogicError.

(** Assignment from a nested initializer, 827-834: the shape must match, then elements are overwritten. *)
Definition assign_nested {A} (a : marray A) (init : nested A (length (exts a))) : outcome (marray A) :=
  if shape_ok (exts a) init
  then if Nat.eqb (length (flatten _ init)) (length (flat a))
       then Ok (MArr (exts a) (flatten _ init)) else UB
  else Throw LogicError.

(* ------------------------------------------------------------------ *)
(** ** Insert, erase, resize, reshape *)

(** [std::accumulate(b,e,1u,mult)] at 950, 952, 1061, 1063, 1130, 1132, 1173: the accumulator is an unsigned int,
    each partial product is reduced mod 2^32. *)
Definition prod32 (l : list nat) : nat :=
  Z.to_nat (fold_left (fun acc e => ((acc * Z.of_nat e) mod two32)%Z) l 1%Z).

(** The copying loops of insert, 961-971 / 1017-1027: [a], [b] are the segment lengths pos*chunk_size and
    remainder*chunk_size, [n] is num*chunk_size; [src] is what read_pos still has ahead of it. Reading past the
    end of the source is UB. *)
Fixpoint ins_loop {A} (iters a n b : nat) (val : A) (src : list A) : outcome (list A) :=
  match iters with
  | 0 => Ok []
  | S k => if Nat.ltb (length src) (a + b) then UB else
           obind (ins_loop k a n b val (skipn (a + b) src)) (fun rest =>
             Ok (firstn a src ++ repeat val n ++ firstn b (skipn a src) ++ rest))
  end.

Definition set_nth {A} (l : list A) (k : nat) (v : A) : list A := firstn k l ++ v :: skipn (S k) l.

(** [insert(dim,pos,num,val)], 1048-1056 with 948-1040.  The asserts dim<Rank and pos<=extents[dim] are preconditions: UB otherwise.
    Exceptions thrown by element copies are in MarrayExnModel.v. *)
Definition insert {A} (a : marray A) (dim pos num : nat) (val : A) : outcome (marray A) :=
  match nth_error (exts a) dim with
  | None => UB
  | Some e =>
    if Nat.ltb e pos then UB else
    let iterations := prod32 (firstn dim (exts a)) in
    let remainder := e - pos in
    let chunk := prod32 (skipn (S dim) (exts a)) in
    obind (ins_loop iterations (pos * chunk) (num * chunk) (remainder * chunk) val (flat a)) (fun d =>
      Ok (MArr (set_nth (exts a) dim (e + num)) d))
  end.

(** The copying loops of erase, 1143-1149. *)
Fixpoint era_loop {A} (iters a n b : nat) (src : list A) : outcome (list A) :=
  match iters with
  | 0 => Ok []
  | S k => if Nat.ltb (length src) (a + n + b) then UB else
           obind (era_loop k a n b (skipn (a + n + b) src)) (fun rest =>
             Ok (firstn a src ++ firstn b (skipn (a + n) src) ++ rest))
  end.

(** [erase(dim,pos,num)], 1124-1163; the asserts at 1125-1127 are preconditions. *)
Definition erase {A} (a : marray A) (dim pos num : nat) : outcome (marray A) :=
  match nth_error (exts a) dim with
  | None => UB
  | Some e =>
    if negb (Nat.ltb pos e && Nat.leb (pos + num) e) then UB else
    let iterations := prod32 (firstn dim (exts a)) in
    let remainder := e - (pos + num) in
    let chunk := prod32 (skipn (S dim) (exts a)) in
    obind (era_loop iterations (pos * chunk) (num * chunk) (remainder * chunk) (flat a)) (fun d =>
      Ok (MArr (set_nth (exts a) dim (e - num)) d))
  end.

(** [resize(dim,size)], 930-936. *)
Definition resize {A} (dflt : A) (a : marray A) (dim size : nat) : outcome (marray A) :=
  match nth_error (exts a) dim with
  | None => UB
  | Some e => if Nat.ltb size e then erase a dim size (e - size)
              else if Nat.ltb e size then insert a dim e (size - e) dflt
              else Ok a
  end.

(** [resize(container)], 938-945: one dimension after the other. *)
Fixpoint resize_from {A} (dflt : A) (a : marray A) (dim : nat) (sizes : list nat) : outcome (marray A) :=
  match sizes with
  | [] => Ok a
  | s :: ss => obind (resize dflt a dim s) (fun a' => resize_from dflt a' (S dim) ss)
  end.
Definition resize_all {A} (dflt : A) (a : marray A) (sizes : list nat) : outcome (marray A) :=
  if Nat.eqb (length sizes) (length (exts a)) then resize_from dflt a 0 sizes else Throw LogicError.

(** [reshape], 1169-1177. total_size() is [length (flat a)]. *)
Definition reshape {A} (a : marray A) (new_exts : list nat) : outcome (marray A) :=
  if Nat.eqb (length new_exts) (length (exts a))
  then if Nat.eqb (prod32 new_exts) (length (flat a)) then Ok (MArr new_exts (flat a)) else Throw LogicError
  else Throw LogicError.

(* ------------------------------------------------------------------ *)
(** ** Reductions *)

(** [sum()], 1184-1186. *)
Definition sum_all (a : marray Z) : Z := fold_left Z.add (flat a) 0%Z.

(** All but dimension [dim], 1196-1199. *)
Definition drop_nth {A} (l : list A) (k : nat) : list A := firstn k l ++ skipn (S k) l.

(** The index update of [sum(dim)], 1208-1224, and of [sum_same_rank], 1252-1268. The loop runs over dimensions from the last to the
    first, so extents and indices are kept in reverse order here.  [d] counts the dimensions still to pass before [dim]
    is met; [None] after it was passed. [extents[i]-1] is in size_t; extents are positive whenever an element exists. *)
Fixpoint odo_sum (res : list nat) (d : option nat) (ind : list nat) (dummy : nat) : list nat * nat :=
  match res with
  | [] => (ind, dummy)
  | e :: res' =>
      match d with
      | Some 0 => if Nat.ltb dummy (e - 1) then (ind, S dummy) else odo_sum res' None ind 0
      | _ => match ind with
             | [] => (ind, dummy)
             | i :: ind' =>
                 if Nat.ltb i (e - 1) then (S i :: ind', dummy)
                 else let (r, dm) := odo_sum res' (match d with Some (S k) => Some k | _ => None end) ind' dummy
                      in (0 :: r, dm)
             end
      end
  end.

(** [s[indices] += x]: out of bounds is UB. *)
Definition add_at (s : list Z) (k : nat) (x : Z) : outcome (list Z) :=
  match nth_error s k with Some v => Ok (set_nth s k (v + x)%Z) | None => UB end.

(** The element loop, 1205-1225. [sres] are the reversed extents of the result. *)
Fixpoint sum_loop (res sres : list nat) (d : nat) (elems s : list Z) (ind : list nat) (dummy : nat) : outcome (list Z) :=
  match elems with
  | [] => Ok s
  | x :: elems' =>
      obind (container_offset (rev sres) (rev ind)) (fun off =>
      obind (add_at s (Z.to_nat off) x) (fun s' =>
        let (ind', dummy') := odo_sum res (Some d) ind dummy in
        sum_loop res sres d elems' s' ind' dummy'))
  end.

(** [sum(dim)], 1192-1228, rank > 1 (static_assert) and dim < rank (otherwise sExtents overflows: UB).
    [s[indices]] uses the container subscript, including its int strides. *)
Definition sum_dim (a : marray Z) (dim : nat) : outcome (marray Z) :=
  if negb (Nat.ltb dim (length (exts a)) && Nat.ltb 1 (length (exts a))) then UB else
  let sex := drop_nth (exts a) dim in
  obind (sum_loop (rev (exts a)) (rev sex) (length (exts a) - 1 - dim) (flat a)
                  (repeat 0%Z (prod sex)) (repeat 0 (length sex)) 0) (fun s =>
    Ok (MArr sex s)).

(** The index update of [sum_same_rank], 1252-1268: the index of dimension dim stays in place at 0. *)
Fixpoint odo_same (res : list nat) (d : option nat) (ind : list nat) (dummy : nat) : list nat * nat :=
  match res, ind with
  | e :: res', i :: ind' =>
      match d with
      | Some 0 => if Nat.ltb dummy (e - 1) then (i :: ind', S dummy)
                  else let (r, dm) := odo_same res' None ind' 0 in (i :: r, dm)
      | _ => if Nat.ltb i (e - 1) then (S i :: ind', dummy)
             else let (r, dm) := odo_same res' (match d with Some (S k) => Some k | _ => None end) ind' dummy
                  in (0 :: r, dm)
      end
  | _, _ => (ind, dummy)
  end.
Fixpoint same_loop (res sres : list nat) (d : nat) (elems s : list Z) (ind : list nat) (dummy : nat) : outcome (list Z) :=
  match elems with
  | [] => Ok s
  | x :: elems' =>
      obind (container_offset (rev sres) (rev ind)) (fun off =>
      obind (add_at s (Z.to_nat off) x) (fun s' =>
        let (ind', dummy') := odo_same res (Some d) ind dummy in
        same_loop res sres d elems' s' ind' dummy'))
  end.
(** [sum_same_rank(dim)], 1235-1272.  For dim >= Rank no dimension is reduced (the comparison i!=dim never fails): the
    array is returned unchanged; this is modelled by [None] never being reached, so we restrict to dim < rank here. *)
Definition sum_same_rank (a : marray Z) (dim : nat) : outcome (marray Z) :=
  if negb (Nat.ltb dim (length (exts a))) then UB else
  let sex := set_nth (exts a) dim 1 in
  obind (same_loop (rev (exts a)) (rev sex) (length (exts a) - 1 - dim) (flat a)
                   (repeat 0%Z (prod sex)) (repeat 0 (length sex)) 0) (fun s =>
    Ok (MArr sex s)).

(* ------------------------------------------------------------------ *)
(** ** Elementwise operations with broadcasting *)

(** Result extents of [applyOp], 1613-1644, computed from the last dimension to the first (lists reversed). *)
Fixpoint bc_extents (e1 e2 : list nat) : outcome (list nat) :=
  match e1, e2 with
  | [], _ => Ok e2
  | _, [] => Ok e1
  | a :: e1', b :: e2' =>
      let ext := if Nat.eqb a b then Some a
                 else if Nat.eqb a 1 then Some b
                 else if Nat.eqb b 1 then Some a else None in
      match ext with
      | None => Throw LogicError
      | Some x => obind (bc_extents e1' e2') (fun r => Ok (x :: r))
      end
  end.

(** Index update of [applyOp], 1686-1724, from the last dimension on. [ex1], [ex2] are the extents (the code keeps extent-1 in
    ex1/ex2). The flag says whether a [break] was reached; dimensions after it are left alone. *)
Fixpoint odo_bc (ex1 ex2 in1 in2 : list nat) : list nat * list nat :=
  match ex1, in1 with
  | [], _ | _, [] =>
      (* i>=R1 : only the second array, 1691-1697 *)
      let fix go ex2 in2 :=
        match ex2, in2 with
        | e :: ex2', i :: in2' => if Nat.ltb i (e - 1) then S i :: in2' else 0 :: go ex2' in2'
        | _, _ => in2
        end in (in1, go ex2 in2)
  | e1 :: ex1', i1 :: in1' =>
      match ex2, in2 with
      | [], _ | _, [] =>
          (* i>=R2 : only the first array, 1698-1704 *)
          if Nat.ltb i1 (e1 - 1) then (S i1 :: in1', in2)
          else let (r1, r2) := odo_bc ex1' ex2 in1' in2 in (0 :: r1, r2)
      | e2 :: ex2', i2 :: in2' =>
          (* both in range, 1705-1723 *)
          let c1 := Nat.ltb 0 (e1 - 1) && Nat.ltb i1 (e1 - 1) in
          let c2 := Nat.ltb 0 (e2 - 1) && Nat.ltb i2 (e2 - 1) in
          let n1 := if c1 then S i1 else 0 in
          let n2 := if c2 then S i2 else 0 in
          if c1 || c2 then (n1 :: in1', n2 :: in2')
          else let (r1, r2) := odo_bc ex1' ex2' in1' in2' in (n1 :: r1, n2 :: r2)
      end
  end.

(** Iterator from indices, 1726-1731: strides are running products from the last dimension (1669-1678). *)
Fixpoint strided (stride : nat) (ex ind : list nat) : nat :=
  match ex, ind with
  | e :: ex', i :: ind' => stride * i + strided (stride * e) ex' ind'
  | _, _ => 0
  end.

(** The element loop, 1682-1732: [n] elements of the result remain.
    Dereferencing an iterator outside the source is UB. *)
Fixpoint bc_loop {A B C} (op : A -> B -> C) (ex1 ex2 : list nat) (d1 : list A) (d2 : list B)
         (n : nat) (in1 in2 : list nat) : outcome (list C) :=
  match n with
  | 0 => Ok []
  | S k =>
      match nth_error d1 (strided 1 ex1 in1), nth_error d2 (strided 1 ex2 in2) with
      | Some x, Some y =>
          let (in1', in2') := odo_bc ex1 ex2 in1 in2 in
          obind (bc_loop op ex1 ex2 d1 d2 k in1' in2') (fun r => Ok (op x y :: r))
      | _, _ => UB
      end
  end.

(** [applyOp], 1607-1736. *)
Definition applyOp {A B C} (op : A -> B -> C) (m1 : marray A) (m2 : marray B) : outcome (marray C) :=
  let r1 := rev (exts m1) in
  let r2 := rev (exts m2) in
  obind (bc_extents r1 r2) (fun re =>
  obind (bc_loop op r1 r2 (flat m1) (flat m2) (prod re) (repeat 0 (length r1)) (repeat 0 (length r2))) (fun d =>
    Ok (MArr (rev re) d))).

(** Same shape fast path, 1742-1761: elementwise zip. [operator+] etc. 1773-1849 choose between the two. *)
Fixpoint zip_with {A B C} (op : A -> B -> C) (x : list A) (y : list B) : list C :=
  match x, y with a :: x', b :: y' => op a b :: zip_with op x' y' | _, _ => [] end.
Definition binop {A B C} (op : A -> B -> C) (m1 : marray A) (m2 : marray B) : outcome (marray C) :=
  if list_eq_dec Nat.eq_dec (exts m1) (exts m2)
  then Ok (MArr (exts m1) (zip_with op (flat m1) (flat m2)))
  else applyOp op m1 m2.
