(** What a user expects of array variables: each holds a value of its own. No heap, no pointers. *)
From Coq Require Import List Arith ZArith Bool.
From Verif Require Import Err MarrayModel MarrayHeapModel.
Import ListNotations.

Definition vstore := nat -> option (marray Z).
Definition empty_like (a : marray Z) : marray Z := MArr (map (fun _ => 0) (exts a)) [].

Definition vstep (s : vstore) (o : hop) : outcome vstore :=
  match o with
  | HNew x _ es vals => match s x with
                        | Some _ => UB
                        | None => if Nat.eqb (length vals) (prod es) then Ok (updf s x (Some (MArr es vals))) else Throw LogicError
                        end
  | HCopy x y => match s x, s y with None, Some b => Ok (updf s x (Some b)) | _, _ => UB end
  | HMove x y => match s x, s y with None, Some b => Ok (updf (updf s x (Some b)) y (Some (empty_like b))) | _, _ => UB end
  | HAssign x y => match s x, s y with Some _, Some b => Ok (updf s x (Some b)) | _, _ => UB end
  | HMoveAssign x y | HSwap x y => match s x, s y with Some a, Some b => Ok (updf (updf s x (Some b)) y (Some a)) | _, _ => UB end
  | HWrite x k v => match s x with
                    | Some a => if Nat.ltb k (length (flat a)) then Ok (updf s x (Some (MArr (exts a) (set_nth (flat a) k v)))) else UB
                    | None => UB
                    end
  | HResize x dim size => match s x with
                          | Some a => obind (resize 0%Z a dim size) (fun r => Ok (updf s x (Some r)))
                          | None => UB
                          end
  | HDestroy x => match s x with Some _ => Ok (updf s x None) | None => UB end
  end.
Fixpoint vrun (s : vstore) (os : list hop) : outcome vstore :=
  match os with [] => Ok s | o :: os' => obind (vstep s o) (fun s' => vrun s' os') end.

(** The value a variable shows. *)
Definition view (s : hstate) (x : nat) : option (marray Z) :=
  match vars s x with
  | None => None
  | Some v => match v_ptr v with
              | None => Some (MArr (v_exts v) [])
              | Some b => match heap s b with Some (_, d) => Some (MArr (v_exts v) d) | None => None end
              end
  end.

(** All constructions use one and the same allocator. *)
Definition one_alloc (al : nat) (os : list hop) : Prop :=
  Forall (fun o => match o with HNew _ a _ _ => a = al | _ => True end) os.
