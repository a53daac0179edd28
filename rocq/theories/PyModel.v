(** Arrays and sequences crossing between Python and C++:
    resources/python/src/nuSQUIDSpy.h:54-196 (vectors to lists, marray to numpy
    arrays and back) and resources/python/inc/container_conversions.h:84-254
    (sequences to std::vector<double> with variable_capacity_policy).

    numpy is taken by its contract.  An array is a shape, strides in bytes, the
    address of its first element, a type and whether its bytes are in the other
    order; memory gives the stored bytes ([raw]) of the element at an address.
    PyArray_GETCONTIGUOUS returns the array itself if its C-contiguous flag is
    set, otherwise a copy in C order with the same type and byte order.  NpyIter_New
    fails (returns NULL) for an array without elements, as NPY_ITER_ZEROSIZE_OK is
    not passed; otherwise its chunks are a parameter ([iter]). *)
From Coq Require Import Reals List Arith ZArith Bool.
From Verif Require Import Err MarrayModel.
Import ListNotations.

Inductive npy_type := NBool | NInt8 | NInt16 | NInt32 | NInt64 | NUint8 | NUint16 | NUint32 | NUint64 | NFloat32 | NFloat64
  | NOther (size : nat).
(** 111-126 *)
Definition sane (t : npy_type) : bool := match t with NOther _ => false | _ => true end.
Definition itemsize (t : npy_type) : Z :=
  match t with
  | NBool | NInt8 | NUint8 => 1
  | NInt16 | NUint16 => 2
  | NInt32 | NUint32 | NFloat32 => 4
  | NInt64 | NUint64 | NFloat64 => 8
  | NOther n => Z.of_nat n
  end.

Section Numpy.
  Variable raw : Type.
  (** the value of stored bytes, in the machine's order and in the other *)
  Variable native reversed : npy_type -> raw -> R.

  Record ndarray := NdArray {
    nd_shape : list nat; nd_strides : list Z; nd_base : Z; nd_type : npy_type; nd_swapped : bool; nd_mem : Z -> raw
  }.
  Fixpoint offset (strides : list Z) (idx : list nat) : Z :=
    match strides, idx with
    | s :: strides', i :: idx' => Z.of_nat i * s + offset strides' idx'
    | _, _ => 0
    end.
  (** element of the array as Python sees it *)
  Definition nd_get (a : ndarray) (idx : list nat) : R :=
    (if nd_swapped a then reversed else native) (nd_type a) (nd_mem a (nd_base a + offset (nd_strides a) idx)).

  (** the flag NPY_ARRAY_C_CONTIGUOUS: strides of extents 1 do not count *)
  Fixpoint c_walk (item : Z) (shape : list nat) (strides : list Z) : bool * Z :=
    match shape, strides with
    | e :: shape', s :: strides' =>
      let (ok, sd) := c_walk item shape' strides' in
      if Nat.eqb e 1 then (ok, sd) else (ok && Z.eqb s sd, sd * Z.of_nat e)
    | _, _ => (true, item)
    end%Z.
  Definition contiguous (a : ndarray) : bool :=
    Nat.eqb (prod (nd_shape a)) 0 || fst (c_walk (itemsize (nd_type a)) (nd_shape a) (nd_strides a)).
  Fixpoint c_strides (item : Z) (shape : list nat) : list Z :=
    match shape with [] => [] | _ :: shape' => (item * Z.of_nat (prod shape'))%Z :: c_strides item shape' end.
  Fixpoint coords (shape : list nat) (k : nat) : list nat :=
    match shape with [] => [] | _ :: shape' => (k / prod shape')%nat :: coords shape' (k mod prod shape') end.
  Definition get_contiguous (a : ndarray) : ndarray :=
    if contiguous a then a
    else let item := itemsize (nd_type a) in
      NdArray (nd_shape a) (c_strides item (nd_shape a)) 0 (nd_type a) (nd_swapped a)
        (fun ad => nd_mem a (nd_base a + offset (nd_strides a) (coords (nd_shape a) (Z.to_nat (ad / item)))))%Z.

  (** what NpyIter gives for each step: pointer, stride, count *)
  Definition chunk := (Z * Z * nat)%type.
  Variable iter : ndarray -> list chunk.

  (** 93-128; the object is a numpy array *)
  Definition convertible (dim : nat) (a : ndarray) : bool :=
    Nat.eqb (length (nd_shape (get_contiguous a))) dim && sane (nd_type (get_contiguous a)).

  (** 170-193: the loop; an unsupported type throws *)
  Definition read_chunk (a : ndarray) (c : chunk) : list R :=
    let '(ptr, stride, count) := c in
    map (fun j => native (nd_type a) (nd_mem a (ptr + Z.of_nat j * stride)))%Z (seq 0 count).
  (** [*it++ = v] for each value; None: past the end *)
  Fixpoint write_all (values flat : list R) : option (list R) :=
    match values, flat with
    | [], _ => Some flat
    | v :: values', _ :: flat' => match write_all values' flat' with Some f => Some (v :: f) | None => None end
    | _ :: _, [] => None
    end.
  (** 130-197 *)
  Definition construct (dim : nat) (a0 : ndarray) : outcome (marray R) :=
    let a := get_contiguous a0 in
    if negb (Nat.eqb (length (nd_shape a)) dim) then UB
    else
      let fresh := repeat 0%R (prod (nd_shape a)) in
      if Nat.eqb (prod (nd_shape a)) 0 then UB
      else if negb (sane (nd_type a)) then Throw RuntimeError
      else match write_all (flat_map (read_chunk a) (iter a)) fresh with
        | Some f => Ok (MArr (nd_shape a) f)
        | None => UB
        end.
  (** a call from Python with an array where an array of rank [dim] is expected *)
  Definition from_numpy (dim : nat) (a : ndarray) : outcome (marray R) :=
    if convertible dim a then construct dim a else Throw OtherExn.

  (** 66-82; [store] the bytes of a double, [blank] what is in memory not written to *)
  Variable store : R -> raw.
  Variable blank : raw.
  Definition to_numpy (m : marray R) : ndarray :=
    NdArray (exts m) (c_strides 8 (exts m)) 0 NFloat64 false
      (fun ad => match nth_error (flat m) (Z.to_nat (ad / 8)) with Some x => store x | None => blank end).
End Numpy.
Arguments NdArray {raw}. Arguments nd_shape {raw}. Arguments nd_strides {raw}. Arguments nd_base {raw}.
Arguments nd_type {raw}. Arguments nd_swapped {raw}. Arguments nd_mem {raw}.
Arguments nd_get {raw}. Arguments contiguous {raw}. Arguments get_contiguous {raw}. Arguments convertible {raw}.
Arguments read_chunk {raw}. Arguments construct {raw}. Arguments from_numpy {raw}. Arguments to_numpy {raw}.

(** ** Sequences *)

(** elements: what extract<double> takes, or anything else *)
Inductive elem := Number (x : R) | Thing.
Inductive pyobj :=
| Items (l : list elem)                  (* list, tuple, or another sequence: each iteration starts anew *)
| Range (l : list R)                     (* range: numbers only *)
| Stream (l : list elem) (len : option nat)  (* its own iterator, perhaps with a length *)
| Text.                                  (* bytes, str and everything else refused at first *)

(** 205-228: all_elements_convertible over what the iterator still gives; what is left *)
Fixpoint check_elements (l : list elem) : bool * list elem :=
  match l with
  | [] => (true, [])
  | Number _ :: l' => check_elements l'
  | Thing :: l' => (false, l')
  end.
(** 153-200; the object afterwards *)
Definition seq_convertible (o : pyobj) : bool * pyobj :=
  match o with
  | Items l => (fst (check_elements l), o)
  | Range l => (true, o)
  | Stream l None => (false, o)
  | Stream l (Some _) => let (ok, rest) := check_elements l in (ok, Stream rest (Some 0%nat))
  | Text => (false, o)
  end.
(** 230-256 *)
Fixpoint push_all (l : list elem) (acc : list R) : outcome (list R) :=
  match l with
  | [] => Ok acc
  | Number x :: l' => push_all l' (acc ++ [x])
  | Thing :: _ => Throw OtherExn
  end.
Definition seq_construct (o : pyobj) : outcome (list R) :=
  match o with
  | Items l | Stream l _ => push_all l []
  | Range l => push_all (map Number l) []
  | Text => Throw OtherExn
  end.
Definition to_vector (o : pyobj) : outcome (list R) :=
  let (ok, o') := seq_convertible o in if ok then seq_construct o' else Throw OtherExn.

(** nuSQUIDSpy.h:52-64: VecToList *)
Definition to_list (v : list R) : pyobj := Items (fold_left (fun l x => l ++ [Number x]) v []).
