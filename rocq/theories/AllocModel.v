(** Model of include/nuSQuIDS/aligned_alloc.h: an allocator returning blocks aligned to a power of two.
    Addresses and size_t values are integers reduced mod 2^64 where the code computes in size_t; memory is a function from addresses to bytes. *)
From Coq Require Import ZArith.
From Verif Require Import Err.
Local Open Scope Z_scope.

Definition SIZE : Z := 2 ^ 64.
Definition szt (x : Z) : Z := x mod SIZE.
Definition u8 (x : Z) : Z := x mod 256.

(** [get_align], 153-155: 1UL << align_pow, returned as uint32_t. *)
Definition get_align (pow : Z) : Z := (2 ^ pow) mod 2 ^ 32.

(** [max_size], 81-83. [sz] is sizeof(T). *)
Definition max_size (pow sz : Z) : Z := (SIZE - 1 - get_align pow) / sz.

Definition memory := Z -> Z.
Definition poke (m : memory) (a v : Z) : memory := fun q => if Z.eqb q a then v else m q.

(** [allocate], 107-133.  [sys] is what [new char[needed]] returns for the number of bytes needed: an address, or [None] when it throws
    bad_alloc.  The result is the pointer handed out and the memory with the stashed byte. *)
Definition allocate (pow sz n : Z) (sys : Z -> option Z) (m : memory) : outcome (Z * memory) :=
  if Z.ltb (max_size pow sz) n then Throw BadAlloc else
  let alignment := get_align pow in
  let needed := szt (szt (n * sz) + alignment) in
  match sys needed with
  | None => Throw BadAlloc
  | Some base =>
      let offset := u8 (alignment - base mod alignment) in
      let ptr := szt (Z.land base (SIZE - 1 - szt (alignment - 1)) + alignment) in
      Ok (ptr, poke m (szt (ptr - 1)) offset)
  end.

(** [deallocate], 135-145: the address handed to [delete[]], or nothing for a null pointer. *)
Definition deallocate (m : memory) (p : Z) : option Z :=
  if Z.eqb p 0 then None else Some (szt (p - m (szt (p - 1)))).
