(** Model of quickread and quickwrite, src/tools.cpp 44-103.
    A text line is the list of its whitespace separated words; "linestream >> data" reads words until one is not a number (a comment mark, say).
    [scan] is the library's conversion of a word to a double ([None]: not a number), [fmt] the conversion of a double to a word with
    precision 15. Opening the file is not modelled. *)
From Coq Require Import List Arith ZArith Bool.
From Verif Require Import Err MarrayModel.
Import ListNotations.

Section T.
Context {V W : Type}.
Variable scan : W -> option V.
Variable fmt : V -> W.

(** 57-60 *)
Fixpoint scan_line (l : list W) : list V :=
  match l with
  | [] => []
  | w :: l' => match scan w with Some v => v :: scan_line l' | None => [] end
  end.

(** 54-73: [table] and [column_number]; size_t -1 is 2^64-1. *)
Fixpoint read_loop (lines : list (list W)) (table : list (list V)) (cols : Z) : outcome (list (list V) * Z) :=
  match lines with
  | [] => Ok (table, cols)
  | l :: rest =>
      let row := scan_line l in
      let n := Z.of_nat (length row) in
      if match row with [] => false | _ => match table with [] => false | _ => negb (Z.eqb cols n) end end
      then Throw RuntimeError
      else read_loop rest (match row with [] => table | _ => table ++ [row] end) n
  end.

(** 75-78: the first [cols] entries of every row; reading past a row's end is UB. *)
Fixpoint take_cols (n : nat) (rows : list (list V)) : outcome (list V) :=
  match rows with
  | [] => Ok []
  | r :: rest => if Nat.ltb (length r) n then UB else obind (take_cols n rest) (fun t => Ok (firstn n r ++ t))
  end.
Definition quickread (lines : list (list W)) : outcome (marray V) :=
  obind (read_loop lines [] (2 ^ 64 - 1)%Z) (fun '(table, cols) =>
  match table with
  | [] => Ok (MArr [0; Z.to_nat cols] [])
  | _ => obind (take_cols (Z.to_nat cols) table) (fun d => Ok (MArr [length table; Z.to_nat cols] d))
  end).

(** quickwrite, 88-103: one line per row. *)
Fixpoint write_rows (rows cols : nat) (d : list V) : list (list W) :=
  match rows with
  | 0 => []
  | S k => map fmt (firstn cols d) :: write_rows k cols (skipn cols d)
  end.
Definition quickwrite (a : marray V) : outcome (list (list W)) :=
  match exts a with
  | [r; c] => Ok (write_rows r c (flat a))
  | _ => UB
  end.
End T.
