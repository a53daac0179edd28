(** Cross sections and tau spectra read from a file, of any version:
    nuSQuIDS.cpp:2467-2688 with InitializeInteractionVectors (259-276).
    FileModel.read_tables is the same for files whose tables fit the grid; here
    also those that do not.

    Of HDF5 we take: asking for the extents of a dataset that is not there fails
    and leaves the buffer (2501-2502, not looked at), opening it fails and is
    thrown (H5Handle, tools.h:275-283); extents are written to the buffer however
    short it is; a read of everything into everything (H5S_ALL, H5S_ALL) copies
    the dataset however short the array is; a read into a selection of another
    number of items fails.  Resized arrays hold zeros (marray.h:930-945).  "targets" has
    rank 1.  Doubles are reals. *)
From Coq Require Import Reals String List Arith Bool ZArith.
From Verif Require Import Err StructModel FileModel LegacyModel.
Import ListNotations.
Local Open Scope nat_scope.

Definition dsets := list (string * dset).
Definition table (g : dsets) (n : string) : option (list nat * list R) :=
  match lookup n g with Some (DDbl dims d) => Some (dims, d) | _ => None end.

(** H5LTget_dataset_info into a buffer of [room] extents, 2501-2502 *)
Definition extents (g : dsets) (n : string) (room : nat) : outcome unit :=
  match table g n with
  | None => Ok tt
  | Some (dims, _) => if length dims <=? room then Ok tt else UB
  end.
(** H5Dopen2 in an H5Handle *)
Definition open (g : dsets) (n : string) : outcome (list R) :=
  match table g n with None => Throw RuntimeError | Some (_, d) => Ok d end.
Definition prod (l : list nat) : nat := fold_right Nat.mul 1 l.

(** H5Dread into an array of extents [sh], [k] rows of [w] items of which [n] count: 2515-2529 or 2553-2561 *)
Definition read_into (sh : list nat) (k n w : nat) (d : list R) : outcome (arr R) :=
  if Nat.eqb w n then
    if length d <=? prod sh then Ok (Arr sh (d ++ repeat 0%R (prod sh - length d))) else UB
  else if Nat.eqb (length d) (k * n) then Ok (Arr sh (flat_map (fun r => r ++ repeat 0%R (w - n)) (rows k n d)))
  else Throw RuntimeError.

(** 2631-2688 *)
Definition read_tau_tables (g : dsets) (nr n : nat) : outcome (arr R * arr R) :=
  let w := rounded n in
  obind (open g "dNdEtauall") (fun a => obind (open g "dNdEtaulep") (fun l =>
  match table g "dNdEtauall" with
  | Some ([_; _; _], _) =>
      obind (read_into [nr; n; w] (nr * n) n w a) (fun ta =>
      obind (read_into [nr; n; w] (nr * n) n w l) (fun tl => Ok (ta, tl)))
  | Some ([d0; d1], _) =>
      (* the buffer of the second has the size of the first *)
      if length l <=? d0 * d1 then
        obind (read_tau nr n w a) (fun ta => obind (read_tau nr n w l) (fun tl =>
        Ok (Arr [nr; n; w] (concat (concat ta)), Arr [nr; n; w] (concat (concat tl)))))
      else UB
  | _ => Throw RuntimeError
  end)).

(** 2467-2688; [old]: nusquids_version < 101100; isoscalar_nucleon is 81 (xsections.h:577) *)
Definition read_xs (old : bool) (g : dsets) (nr f n : nat) : outcome (istruct R) :=
  let w := rounded n in
  obind (if old then Ok [81%Z] else
         match lookup "targets" g with Some (DInt (t :: ts)) => Ok (t :: ts) | _ => Throw RuntimeError end) (fun ts =>
  let k := length ts in
  obind (extents g "sigmacc" (if old then 3 else 4)) (fun _ =>
  obind (extents g "dNdEcc" (if old then 4 else 5)) (fun _ =>
  obind (open g "sigmacc") (fun scc => obind (open g "sigmanc") (fun snc => obind (open g "sigmagr") (fun sgr =>
  obind (read_into [k; nr; f; w] (k * nr * f) n w scc) (fun a_scc =>
  obind (read_into [k; nr; f; w] (k * nr * f) n w snc) (fun a_snc =>
  obind (read_into [w] 1 n w sgr) (fun a_sgr =>
  obind (open g "dNdEcc") (fun dcc => obind (open g "dNdEnc") (fun dnc => obind (open g "dNdEgr") (fun dgr =>
  obind (read_into [k; nr; f; n; w] (k * nr * f * n) n w dcc) (fun a_dcc =>
  obind (read_into [k; nr; f; n; w] (k * nr * f * n) n w dnc) (fun a_dnc =>
  obind (read_into [n; w] n n w dgr) (fun a_dgr =>
  obind (read_tau_tables g nr n) (fun tau =>
  Ok (Istruct ts a_dcc a_dnc a_dgr a_scc a_snc a_sgr (fst tau) (snd tau))
  )))))))))))))))).
