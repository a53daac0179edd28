(** Model of the HDF5 helpers: the handle classes (include/nuSQuIDS/tools.h 257-306), arrays (318-381) and attributes
    (tools.h 383-421, src/tools.cpp 804-842). The HDF5 library is a contract: identifiers that it has issued and not yet closed; a group is a
    list of named datasets and attributes. *)
From Coq Require Import List Arith ZArith Bool String.
From Verif Require Import Err MarrayModel.
Import ListNotations.

(* ------------------------------------------------------------------ *)
(** ** Handles *)
(** The wrapper objects alive, by name. [kind]: the closing function; [None] is the null pointer of a default constructed H5Handle. *)
Record handle := Handle { hid : Z; kind : option nat }.
(** [opened]: identifiers the library has issued and not closed, with their closing function. [issued], [closed]: logs of the valid ones.
    [bogus]: calls of a closing function with an identifier that is not open (or with the wrong function). *)
Record hstate := HState { vars : list (nat * handle); opened : list (Z * nat); issued : list (Z * nat); closed : list (Z * nat); bogus : list Z }.
Inductive hop :=
| HDefault (v : nat)                     (* H5Handle v; *)
| HAcquire (v : nat) (id : Z) (k : nat)  (* H5Handle v(library call, closer, desc), the library having returned id *)
| HMove (v u : nat)                      (* H5Handle v(std::move(u)); *)
| HAssign (v u : nat)                    (* v=std::move(u); *)
| HDestroy (v : nat).                    (* end of v's lifetime *)
Inductive hevent := HOk | HThrow | HNull (* null function pointer called *).

Fixpoint find_var (vs : list (nat * handle)) (v : nat) : option handle :=
  match vs with [] => None | (w, h) :: r => if Nat.eqb v w then Some h else find_var r v end.
Fixpoint set_var (vs : list (nat * handle)) (v : nat) (h : handle) : list (nat * handle) :=
  match vs with [] => [] | (w, g) :: r => if Nat.eqb v w then (w, h) :: r else (w, g) :: set_var r v h end.
Fixpoint del_var (vs : list (nat * handle)) (v : nat) : list (nat * handle) :=
  match vs with [] => [] | (w, g) :: r => if Nat.eqb v w then r else (w, g) :: del_var r v end.
Fixpoint del_id (os : list (Z * nat)) (id : Z) (k : nat) : option (list (Z * nat)) :=
  match os with
  | [] => None
  | (i, j) :: r => if andb (Z.eqb i id) (Nat.eqb j k) then Some r else match del_id r id k with None => None | Some r' => Some ((i, j) :: r') end
  end.
(** The library's part of closing. *)
Definition lib_close (s : hstate) (id : Z) (k : nat) : hstate :=
  match del_id (opened s) id k with
  | Some o => HState (vars s) o (issued s) ((id, k) :: closed s) (bogus s)
  | None => HState (vars s) (opened s) (issued s) (closed s) (id :: bogus s)
  end.
(** The library's part of issuing: a negative number on failure, otherwise an identifier that is not open. *)
Definition may_issue (s : hstate) (id : Z) : bool := orb (Z.ltb id 0) (negb (existsb (fun p => Z.eqb (fst p) id) (opened s))).
Definition lib_issue (s : hstate) (id : Z) (k : nat) : hstate :=
  if Z.ltb id 0 then s else HState (vars s) ((id, k) :: opened s) ((id, k) :: issued s) (closed s) (bogus s).
Definition with_vars (s : hstate) (vs : list (nat * handle)) : hstate := HState vs (opened s) (issued s) (closed s) (bogus s).

(** H5Handle, 269-306. [None]: the operation does not make sense (name in use, object not alive, identifier the library cannot return). *)
Definition hstep (s : hstate) (o : hop) : option (hevent * hstate) :=
  match o with
  | HDefault v => match find_var (vars s) v with Some _ => None | None => Some (HOk, with_vars s ((v, Handle (-1) None) :: vars s)) end
  | HAcquire v id k =>
      match find_var (vars s) v with Some _ => None | None =>
      if may_issue s id then
        let s := lib_issue s id k in
        if Z.ltb id 0 then Some (HThrow, s) else Some (HOk, with_vars s ((v, Handle id (Some k)) :: vars s))
      else None end
  | HMove v u =>
      match find_var (vars s) v, find_var (vars s) u with
      | None, Some h => Some (HOk, with_vars s ((v, h) :: set_var (vars s) u (Handle (-1) (kind h))))
      | _, _ => None
      end
  | HAssign v u =>
      match find_var (vars s) v, find_var (vars s) u with
      | Some g, Some h => if Nat.eqb v u then Some (HOk, s) else Some (HOk, with_vars s (set_var (set_var (vars s) v h) u g))
      | _, _ => None
      end
  | HDestroy v =>
      match find_var (vars s) v with
      | None => None
      | Some h =>
          let s' := with_vars s (del_var (vars s) v) in
          if Z.leb 0 (hid h) then match kind h with Some k => Some (HOk, lib_close s' (hid h) k) | None => Some (HNull, s') end
          else Some (HOk, s')
      end
  end.
(** H5File, 257-266: always H5Fclose (closing function 0); an invalid identifier is kept; a moved-from object holds 0. *)
Definition fstep (s : hstate) (o : hop) : option (hevent * hstate) :=
  match o with
  | HDefault v => None
  | HAcquire v id k =>
      match find_var (vars s) v with Some _ => None | None =>
      if may_issue s id then let s := lib_issue s id 0 in Some (HOk, with_vars s ((v, Handle id (Some 0%nat)) :: vars s)) else None end
  | HMove v u =>
      match find_var (vars s) v, find_var (vars s) u with
      | None, Some h => Some (HOk, with_vars s ((v, h) :: set_var (vars s) u (Handle 0 (kind h))))
      | _, _ => None
      end
  | HAssign v u =>
      match find_var (vars s) v, find_var (vars s) u with
      | Some g, Some h => if Nat.eqb v u then Some (HOk, s) else Some (HOk, with_vars s (set_var (set_var (vars s) v h) u g))
      | _, _ => None
      end
  | HDestroy v =>
      match find_var (vars s) v with
      | None => None
      | Some h => Some (HOk, lib_close (with_vars s (del_var (vars s) v)) (hid h) 0)
      end
  end.
Fixpoint hrun (step : hstate -> hop -> option (hevent * hstate)) (s : hstate) (os : list hop) : option (list hevent * hstate) :=
  match os with
  | [] => Some ([], s)
  | o :: os' => match step s o with None => None | Some (e, s') => match hrun step s' os' with None => None | Some (es, s'') => Some (e :: es, s'') end end
  end.
Definition hempty : hstate := HState [] [] [] [] [].

(* ------------------------------------------------------------------ *)
(** ** Arrays *)
Definition target_chunk : Z := 65536.
(** The chunk shape loop, 326-345, over the extents from the last to the first. [size] is an unsigned long; [dimi] an unsigned int.
    Dividing by a zero size is undefined. *)
Definition u32 (x : Z) : Z := (x mod two32)%Z.
Definition u64 (x : Z) : Z := (x mod two64)%Z.
Fixpoint chunk_loop (size : Z) (rev_exts : list Z) : outcome (list Z) :=
  match rev_exts with
  | [] => Ok []
  | e :: es =>
      if Z.ltb size target_chunk then
        if Z.eqb size 0 then UB else
        let dimi := u32 (target_chunk / size) in
        let dimi := if orb (Z.ltb e dimi) (Z.eqb dimi 0) then u32 e else dimi in
        obind (chunk_loop (u64 (size * dimi)) es) (fun r => Ok (dimi :: r))
      else obind (chunk_loop size es) (fun r => Ok (1%Z :: r))
  end.
Definition chunk_dims (elem : Z) (exts : list nat) : outcome (list Z) :=
  obind (chunk_loop elem (rev (map Z.of_nat exts))) (fun r => Ok (rev r)).

(** A dataset of the file; [B] is the stored element type. An attribute is a fixed-length string or a number of some type. *)
Record dataset (B : Type) := Dataset { dexts : list nat; ddata : list B }.
Arguments Dataset {B}. Arguments dexts {B}. Arguments ddata {B}.
Inductive attr := AStr (s : string) | ANum (type : nat) (v : Z).
Record group (B : Type) := Group { dsets : list (string * dataset B); attrs : list (string * attr) }.
Arguments Group {B}. Arguments dsets {B}. Arguments attrs {B}.
Fixpoint lookup {V} (n : string) (l : list (string * V)) : option V :=
  match l with [] => None | (m, v) :: r => if String.eqb n m then Some v else lookup n r end.

Section Arrays.
Context {A B : Type} (elem_size : Z) (to_file : A -> B) (from_file : B -> A) (dflt : A).

(** What H5Pset_chunk and H5Dcreate require of a chunk shape: one positive number per dimension, none above the extent. *)
Definition chunk_valid (c : list Z) (exts : list nat) : bool :=
  andb (Nat.eqb (List.length c) (List.length exts)) (forallb (fun p => andb (Z.ltb 0 (fst p)) (Z.leb (fst p) (Z.of_nat (snd p)))) (combine c exts)).
(** writeArrayH5, 318-359. Result, group after, identifiers left open. When H5Dcreate fails, H5Dwrite fails and the function throws
    after closing. The assertion on the level is taken as undefined behaviour. *)
Definition write_array (g : group B) (name : string) (a : marray A) (level : nat) : outcome unit * group B * nat :=
  if Nat.ltb 9 level then (UB, g, 0) else
  match (if Nat.eqb level 0 then Ok [] else chunk_dims elem_size (exts a)) with
  | UB => (UB, g, 0)
  | Throw e => (Throw e, g, 0)
  | Ok c =>
      if orb (Nat.eqb level 0) (chunk_valid c (exts a)) then
        match lookup name (dsets g) with
        | Some _ => (Throw RuntimeError, g, 0)
        | None => (Ok tt, Group ((name, Dataset (exts a) (map to_file (flat a))) :: dsets g) (attrs g), 0)
        end
      else (Throw RuntimeError, g, 0)
  end.
(** readArrayH5, 361-381. [rank] is that of the target type. Identifiers left open: the dataset and the data space, when the rank is
    wrong. H5Dread fills the whole target. *)
Definition read_array (g : group B) (name : string) (target : marray A) : outcome (marray A) * nat :=
  match lookup name (dsets g) with
  | None => (Throw RuntimeError, 0)
  | Some d =>
      if Nat.eqb (List.length (dexts d)) (List.length (exts target)) then
        match resize_all dflt target (dexts d) with
        | Ok t => if Nat.eqb (List.length (flat t)) (List.length (ddata d)) then (Ok (MArr (exts t) (map from_file (ddata d))), 0) else (UB, 0)
        | Throw e => (Throw e, 1)
        | UB => (UB, 1)
        end
      else (Throw RuntimeError, 2)
  end.
End Arrays.

(** addH5Attribute<std::string>, src/tools.cpp 808-818. A size of 0 is refused by H5Tset_size, which leaves the type at one character; the
    character written is the terminating NUL. H5Acreate fails when the name exists; nothing is checked. *)
Definition nul : string := String (Ascii.ascii_of_nat 0) EmptyString.
Definition add_string {B} (g : group B) (name s : string) : group B :=
  match lookup name (attrs g) with
  | Some _ => g
  | None => Group (dsets g) ((name, AStr (if String.eqb s EmptyString then nul else s)) :: attrs g)
  end.
(** readH5Attribute<std::string>, 820-842. *)
Definition read_string {B} (g : group B) (name : string) : outcome string :=
  match lookup name (attrs g) with Some (AStr s) => Ok s | _ => Throw RuntimeError end.
(** addH5Attribute<T>, tools.h 383-392, and readH5Attribute<T>, 397-418; the value is an opaque number of a type. *)
Definition add_number {B} (g : group B) (name : string) (type : nat) (v : Z) : group B :=
  match lookup name (attrs g) with Some _ => g | None => Group (dsets g) ((name, ANum type v) :: attrs g) end.
Definition read_number {B} (g : group B) (name : string) (type : nat) : outcome Z :=
  match lookup name (attrs g) with Some (ANum t v) => if Nat.eqb t type then Ok v else Throw RuntimeError | _ => Throw RuntimeError end.
