(** The GSL-like matrix tools, src/tools.cpp:137-207 (include/nuSQuIDS/tools.h:74-90).
    A pointer names a cell of the heap; a freed or unallocated cell is [None] and using it is UB. GSL's own functions
    follow their manual: gsl_matrix_complex_memcpy and gsl_blas_zgemm call the error handler, which ends the program
    ([Throw OtherExn]), when sizes do not match; zgemm whose target is also a factor is UB. Entries are pairs of reals;
    sizes do not overflow. gsl_matrix_complex_print is not modelled. *)
From Coq Require Import Reals Arith Bool.
From Verif Require Import Err CMatrix.
Open Scope R_scope.

Record gmat := GM { g_rows : nat; g_cols : nat; g_at : mat }.
(** [next] is above all cells ever allocated *)
Record heap := Heap { next : nat; cells : nat -> option gmat }.

Definition store (f : nat -> option gmat) (p : nat) (v : option gmat) : nat -> option gmat :=
  fun q => if Nat.eqb q p then v else f q.
Definition put (h : heap) (p : nat) (v : option gmat) : heap := Heap (next h) (store (cells h) p v).

(** gsl_matrix_complex_alloc: the entries are arbitrary, [junk] *)
Definition galloc (junk : mat) (h : heap) (r c : nat) : heap * nat :=
  (Heap (S (next h)) (store (cells h) (next h) (Some (GM r c junk))), next h).
(** gsl_matrix_complex_free *)
Definition gfree (h : heap) (p : nat) : outcome heap :=
  match cells h p with None => UB | Some _ => Ok (put h p None) end.
(** gsl_matrix_complex_memcpy(dst, src) *)
Definition gmemcpy (h : heap) (dst src : nat) : outcome heap :=
  match cells h dst, cells h src with
  | Some d, Some s =>
    if Nat.eqb (g_rows d) (g_rows s) && Nat.eqb (g_cols d) (g_cols s) then Ok (put h dst (Some (GM (g_rows d) (g_cols d) (g_at s))))
    else Throw OtherExn
  | _, _ => UB
  end.
(** gsl_blas_zgemm: C := alpha op(A) op(B) + beta C *)
Inductive trans := NoTrans | ConjTrans.
Definition op_rows (t : trans) (a : gmat) : nat := match t with NoTrans => g_rows a | ConjTrans => g_cols a end.
Definition op_cols (t : trans) (a : gmat) : nat := match t with NoTrans => g_cols a | ConjTrans => g_rows a end.
Definition op_at (t : trans) (a : gmat) : mat := match t with NoTrans => g_at a | ConjTrans => dagger (g_at a) end.
Definition zgemm (ta tb : trans) (alpha : C) (a b : nat) (beta : C) (c : nat) (h : heap) : outcome heap :=
  match cells h a, cells h b, cells h c with
  | Some A, Some B, Some D =>
    if Nat.eqb (op_cols ta A) (op_rows tb B) && Nat.eqb (op_rows ta A) (g_rows D) && Nat.eqb (op_cols tb B) (g_cols D) then
      if Nat.eqb a c || Nat.eqb b c then UB
      else Ok (put h c (Some (GM (g_rows D) (g_cols D)
             (fun i j => cplus (cmult alpha (csum (op_cols ta A) (fun k => cmult (op_at ta A i k) (op_at tb B k j)))) (cmult beta (g_at D i j))))))
    else Throw OtherExn
  | _, _, _ => UB
  end.

(** gsl_matrix_complex_get, gsl_matrix_complex_set: range checked *)
Definition gget (h : heap) (p i j : nat) : outcome C :=
  match cells h p with
  | Some a => if Nat.ltb i (g_rows a) && Nat.ltb j (g_cols a) then Ok (g_at a i j) else Throw OtherExn
  | None => UB
  end.
Definition gset (h : heap) (p i j : nat) (z : C) : outcome heap :=
  match cells h p with
  | Some a =>
    if Nat.ltb i (g_rows a) && Nat.ltb j (g_cols a)
    then Ok (put h p (Some (GM (g_rows a) (g_cols a) (fun x y => if Nat.eqb x i && Nat.eqb y j then z else g_at a x y))))
    else Throw OtherExn
  | None => UB
  end.

(** for (j = ...; k more turns) of 144-147 *)
Fixpoint conj_row (k : nat) (p i j : nat) (h : heap) : outcome heap :=
  match k with
  | O => Ok h
  | S k' => obind (gget h p i j) (fun z => obind (gset h p i j (cconj z)) (conj_row k' p i (S j)))
  end.
(** for (i = ...; k more turns) of 143-148 *)
Fixpoint conj_rows (k : nat) (cols p i : nat) (h : heap) : outcome heap :=
  match k with
  | O => Ok h
  | S k' => obind (conj_row cols p i 0 h) (conj_rows k' cols p (S i))
  end.
(** gsl_matrix_complex_conjugate, 139-149 *)
Definition conjugate (p : nat) (h : heap) : outcome heap :=
  match cells h p with None => UB | Some a => conj_rows (g_rows a) (g_cols a) p 0 h end.

(** the common frame of 161-183 and 185-207: two copies of U, a work matrix, two products, the work matrices freed *)
Definition change_basis (first : nat -> nat -> heap -> outcome heap) (second : nat -> nat -> heap -> outcome heap)
    (junk : mat) (U : nat) (h : heap) : outcome heap :=
  match cells h U with
  | None => UB
  | Some u =>
    let n := g_rows u in
    let (h, U1) := galloc junk h n n in
    let (h, U2) := galloc junk h n n in
    obind (gmemcpy h U1 U) (fun h => obind (gmemcpy h U2 U) (fun h =>
    let (h, T1) := galloc junk h n n in
    obind (first U1 T1 h) (fun h => obind (second U2 T1 h) (fun h =>
    obind (gfree h U1) (fun h => obind (gfree h U2) (fun h => gfree h T1))))))
  end.
(** gsl_matrix_complex_change_basis_UMUC, 161-183 *)
Definition umuc (junk : mat) (U M : nat) (h : heap) : outcome heap :=
  change_basis (fun U1 T1 => zgemm NoTrans ConjTrans c1 M U1 c0 T1) (fun U2 T1 => zgemm NoTrans NoTrans c1 U2 T1 c0 M) junk U h.
(** gsl_matrix_complex_change_basis_UCMU, 185-207 *)
Definition ucmu (junk : mat) (U M : nat) (h : heap) : outcome heap :=
  change_basis (fun U1 T1 => zgemm NoTrans NoTrans c1 M U1 c0 T1) (fun U2 T1 => zgemm ConjTrans NoTrans c1 U2 T1 c0 M) junk U h.
