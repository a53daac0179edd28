(** C85: the matrix tools do what their names say on every heap. *)
From Coq Require Import Reals Arith Bool Lia Lra.
From Verif Require Import Err CMatrix MatToolsModel.
Open Scope R_scope.

(** nothing is allocated at or above [next] *)
Definition fresh (h : heap) : Prop := forall p, (next h <= p)%nat -> cells h p = None.
Definition holds (h : heap) (p n : nat) (A : mat) : Prop := cells h p = Some (GM n n A).
(** every cell but [p] is as before *)
Definition only (p : nat) (h h' : heap) : Prop := forall q, q <> p -> cells h' q = cells h q.

Lemma below h p a : fresh h -> cells h p = Some a -> (p < next h)%nat.
Proof. intros F E. destruct (le_lt_dec (next h) p) as [L|L]; [rewrite (F p L) in E; discriminate|exact L]. Qed.

Ltac eqbs := repeat match goal with
  | |- context [Nat.eqb ?a ?b] => first [rewrite (proj2 (Nat.eqb_neq a b)) by lia | rewrite (proj2 (Nat.eqb_eq a b)) by lia]
  end.

Definition left_ (n : nat) (junk U M : mat) : mat := fun i j =>
  cplus (cmult c1 (csum n (fun k => cmult (U i k) (cplus (cmult c1 (csum n (fun l => cmult (M k l) (dagger U l j)))) (cmult c0 (junk k j)))))) (cmult c0 (M i j)).
Definition right_ (n : nat) (junk U M : mat) : mat := fun i j =>
  cplus (cmult c1 (csum n (fun k => cmult (dagger U i k) (cplus (cmult c1 (csum n (fun l => cmult (M k l) (U l j)))) (cmult c0 (junk k j)))))) (cmult c0 (M i j)).

Ltac crunch HU HM := unfold zgemm, gmemcpy, gfree, galloc;
  repeat (progress (unfold put, store; cbn [next cells g_rows g_cols g_at op_rows op_cols op_at andb orb obind]; eqbs; rewrite ?HU, ?HM)).
Ltac frame F := match goal with
  | |- fresh _ => intros p L; cbn [next cells] in *; eqbs;
      repeat match goal with |- context [Nat.eqb p ?b] => destruct (Nat.eqb_spec p b); [reflexivity|] end; apply F; lia
  | |- only ?M _ _ => intros q Q; cbn [cells]; rewrite ?(proj2 (Nat.eqb_neq q M)) by exact Q;
      repeat match goal with |- context [Nat.eqb q ?b] => destruct (Nat.eqb_spec q b); [symmetry; apply F; lia|] end; reflexivity
  | |- _ => cbn [cells]; eqbs; reflexivity
  end.

Lemma umuc_run junk h U M n A B : fresh h -> holds h U n A -> holds h M n B ->
  exists h', umuc junk U M h = Ok h' /\ fresh h' /\ holds h' M n (left_ n junk A B) /\ only M h h'.
Proof.
  intros F HU HM. pose proof (below _ _ _ F HU) as LU. pose proof (below _ _ _ F HM) as LM.
  unfold holds in *. unfold umuc, change_basis. rewrite HU. crunch HU HM.
  eexists. split; [reflexivity|]. split; [frame F|split; frame F].
Qed.
Lemma ucmu_run junk h U M n A B : fresh h -> holds h U n A -> holds h M n B ->
  exists h', ucmu junk U M h = Ok h' /\ fresh h' /\ holds h' M n (right_ n junk A B) /\ only M h h'.
Proof.
  intros F HU HM. pose proof (below _ _ _ F HU) as LU. pose proof (below _ _ _ F HM) as LM.
  unfold holds in *. unfold ucmu, change_basis. rewrite HU. crunch HU HM.
  eexists. split; [reflexivity|]. split; [frame F|split; frame F].
Qed.

(** M' = U M U^dagger, by entries *)
Definition turned (n : nat) (U M M' : mat) : Prop := forall i j, (i < n)%nat -> (j < n)%nat ->
  M' i j = csum n (fun k => csum n (fun l => cmult (cmult (U i k) (M k l)) (cconj (U j l)))).
(** M' = U^dagger M U, by entries *)
Definition unturned (n : nat) (U M M' : mat) : Prop := forall i j, (i < n)%nat -> (j < n)%nat ->
  M' i j = csum n (fun k => csum n (fun l => cmult (cmult (cconj (U k i)) (M k l)) (U l j))).

Lemma left_turned n junk U M : turned n U M (left_ n junk U M).
Proof.
  intros i j _ _. unfold left_, dagger. transitivity (csum n (fun k => cmult (U i k) (csum n (fun l => cmult (M k l) (cconj (U j l)))))).
  - transitivity (csum n (fun k => cmult (U i k) (cplus (cmult c1 (csum n (fun l => cmult (M k l) (cconj (U j l))))) (cmult c0 (junk k j))))); [ring|].
    apply csum_ext. intros k _. f_equal. ring.
  - apply csum_ext. intros k _. rewrite <- csum_mult_l. apply csum_ext. intros l _. ring.
Qed.
Lemma right_unturned n junk U M : unturned n U M (right_ n junk U M).
Proof.
  intros i j _ _. unfold right_, dagger. transitivity (csum n (fun k => cmult (cconj (U k i)) (csum n (fun l => cmult (M k l) (U l j))))).
  - transitivity (csum n (fun k => cmult (cconj (U k i)) (cplus (cmult c1 (csum n (fun l => cmult (M k l) (U l j)))) (cmult c0 (junk k j))))); [ring|].
    apply csum_ext. intros k _. f_equal. ring.
  - apply csum_ext. intros k _. rewrite <- csum_mult_l. apply csum_ext. intros l _. ring.
Qed.
Lemma turned_mat n U M M' : turned n U M M' -> meq n M' (mmult n U (mmult n M (dagger U))).
Proof.
  intros T i j I J. rewrite (T i j I J). unfold mmult, dagger. apply csum_ext. intros k _. rewrite <- csum_mult_l. apply csum_ext. intros l _. ring.
Qed.
Lemma unturned_mat n U M M' : unturned n U M M' -> meq n M' (mmult n (dagger U) (mmult n M U)).
Proof.
  intros T i j I J. rewrite (T i j I J). unfold mmult, dagger. apply csum_ext. intros k _. rewrite <- csum_mult_l. apply csum_ext. intros l _. ring.
Qed.

(** The first change of basis replaces M by U M U^dagger, whether or not U and M are the same matrix, leaves every other
    matrix as it was and releases what it allocated. *)
Theorem c85_umuc junk h U M n A B : fresh h -> holds h U n A -> holds h M n B ->
  exists h' B', umuc junk U M h = Ok h' /\ holds h' M n B' /\ turned n A B B' /\ only M h h' /\ fresh h'.
Proof.
  intros F HU HM. destruct (umuc_run junk h U M n A B F HU HM) as (h' & E & F' & HM' & O).
  exists h', (left_ n junk A B). split; [exact E|]. split; [exact HM'|]. split; [apply left_turned|]. split; [exact O|exact F'].
Qed.
(** The second one replaces M by U^dagger M U. *)
Theorem c85_ucmu junk h U M n A B : fresh h -> holds h U n A -> holds h M n B ->
  exists h' B', ucmu junk U M h = Ok h' /\ holds h' M n B' /\ unturned n A B B' /\ only M h h' /\ fresh h'.
Proof.
  intros F HU HM. destruct (ucmu_run junk h U M n A B F HU HM) as (h' & E & F' & HM' & O).
  exists h', (right_ n junk A B). split; [exact E|]. split; [exact HM'|]. split; [apply right_unturned|]. split; [exact O|exact F'].
Qed.

Lemma back n A B B' B'' : unitary n A -> turned n A B B' -> unturned n A B' B'' -> meq n B'' B.
Proof.
  intros (UL & UR) T1 T2. apply turned_mat in T1. apply unturned_mat in T2.
  eapply meq_trans; [exact T2|]. eapply meq_trans; [apply mmult_meq; [apply meq_refl|apply mmult_meq; [exact T1|apply meq_refl]]|].
  (* A† ((A (B A†)) A) *)
  eapply meq_trans; [apply mmult_meq; [apply meq_refl|apply mmult_assoc]|].
  eapply meq_trans; [apply meq_sym, mmult_assoc|]. eapply meq_trans; [apply mmult_meq; [exact UR|apply mmult_assoc]|].
  eapply meq_trans; [apply mmult_id_l|]. eapply meq_trans; [apply mmult_meq; [apply meq_refl|exact UR]|]. apply mmult_id_r.
Qed.
Lemma forth n A B B' B'' : unitary n A -> unturned n A B B' -> turned n A B' B'' -> meq n B'' B.
Proof.
  intros (UL & UR) T1 T2. apply unturned_mat in T1. apply turned_mat in T2.
  eapply meq_trans; [exact T2|]. eapply meq_trans; [apply mmult_meq; [apply meq_refl|apply mmult_meq; [exact T1|apply meq_refl]]|].
  eapply meq_trans; [apply mmult_meq; [apply meq_refl|apply mmult_assoc]|].
  eapply meq_trans; [apply meq_sym, mmult_assoc|]. eapply meq_trans; [apply mmult_meq; [exact UL|apply mmult_assoc]|].
  eapply meq_trans; [apply mmult_id_l|]. eapply meq_trans; [apply mmult_meq; [apply meq_refl|exact UL]|]. apply mmult_id_r.
Qed.

(** With a unitary U each of the two undoes the other. *)
Theorem c85_inverse junk junk' h U M n A B : fresh h -> U <> M -> unitary n A -> holds h U n A -> holds h M n B ->
  (exists h1 h2 B', umuc junk U M h = Ok h1 /\ ucmu junk' U M h1 = Ok h2 /\ holds h2 M n B' /\ meq n B' B) /\
  (exists h1 h2 B', ucmu junk U M h = Ok h1 /\ umuc junk' U M h1 = Ok h2 /\ holds h2 M n B' /\ meq n B' B).
Proof.
  intros F D UN HU HM. split.
  - destruct (c85_umuc junk h U M n A B F HU HM) as (h1 & B1 & E1 & H1 & T1 & O1 & F1).
    assert (HU1 : holds h1 U n A) by (unfold holds; rewrite (O1 U D); exact HU).
    destruct (c85_ucmu junk' h1 U M n A B1 F1 HU1 H1) as (h2 & B2 & E2 & H2 & T2 & _ & _).
    exists h1, h2, B2. split; [exact E1|]. split; [exact E2|]. split; [exact H2|]. exact (back _ _ _ _ _ UN T1 T2).
  - destruct (c85_ucmu junk h U M n A B F HU HM) as (h1 & B1 & E1 & H1 & T1 & O1 & F1).
    assert (HU1 : holds h1 U n A) by (unfold holds; rewrite (O1 U D); exact HU).
    destruct (c85_umuc junk' h1 U M n A B1 F1 HU1 H1) as (h2 & B2 & E2 & H2 & T2 & _ & _).
    exists h1, h2, B2. split; [exact E1|]. split; [exact E2|]. split; [exact H2|]. exact (forth _ _ _ _ _ UN T1 T2).
Qed.

(** What a unitary change of basis keeps: the trace and hermiticity. *)
Theorem c85_invariants n A B B' : unitary n A -> turned n A B B' \/ unturned n A B B' ->
  trace n B' = trace n B /\ (hermitian n B -> hermitian n B').
Proof.
  intros (UL & UR) T.
  assert (G : exists V, meq n (mmult n (dagger V) V) mid /\ meq n B' (mmult n V (mmult n B (dagger V)))).
  { destruct T as [T|T].
    - exists A. split; [exact UR|apply turned_mat; exact T].
    - exists (dagger A). split.
      + eapply meq_trans; [apply mmult_meq; [apply dagger_dagger|apply meq_refl]|exact UL].
      + eapply meq_trans; [apply unturned_mat; exact T|]. apply mmult_meq; [apply meq_refl|]. apply mmult_meq; [apply meq_refl|]. apply meq_sym, dagger_dagger. }
  destruct G as (V & VV & E). split.
  - rewrite (trace_meq n _ _ E). rewrite trace_cycle. transitivity (trace n (mmult n B (mmult n (dagger V) V))).
    + apply trace_meq. apply mmult_assoc.
    + apply trace_meq. eapply meq_trans; [apply mmult_meq; [apply meq_refl|exact VV]|]. apply mmult_id_r.
  - intro H. unfold hermitian. eapply meq_trans; [apply dagger_meq; exact E|]. apply meq_sym. eapply meq_trans; [exact E|].
    apply meq_sym. eapply meq_trans; [apply dagger_mult|]. eapply meq_trans; [apply mmult_meq; [apply dagger_mult|apply meq_refl]|].
    eapply meq_trans; [apply mmult_assoc|]. eapply meq_trans; [apply mmult_meq; [apply dagger_dagger|apply meq_refl]|].
    apply mmult_meq; [apply meq_refl|]. apply mmult_meq; [exact H|apply meq_refl].
Qed.

(** A unitary matrix changed with itself stays as it is, in both directions. *)
Theorem c85_itself junk h U n A : fresh h -> unitary n A -> holds h U n A ->
  (exists h' A', umuc junk U U h = Ok h' /\ holds h' U n A' /\ meq n A' A) /\
  (exists h' A', ucmu junk U U h = Ok h' /\ holds h' U n A' /\ meq n A' A).
Proof.
  intros F (UL & UR) HU. split.
  - destruct (c85_umuc junk h U U n A A F HU HU) as (h1 & B1 & E1 & H1 & T1 & _ & _). exists h1, B1. split; [exact E1|]. split; [exact H1|].
    eapply meq_trans; [apply turned_mat; exact T1|]. eapply meq_trans; [apply mmult_meq; [apply meq_refl|exact UL]|]. apply mmult_id_r.
  - destruct (c85_ucmu junk h U U n A A F HU HU) as (h1 & B1 & E1 & H1 & T1 & _ & _). exists h1, B1. split; [exact E1|]. split; [exact H1|].
    eapply meq_trans; [apply unturned_mat; exact T1|]. eapply meq_trans; [apply meq_sym, mmult_assoc|].
    eapply meq_trans; [apply mmult_meq; [exact UR|apply meq_refl]|]. apply mmult_id_l.
Qed.

(** Both end the program unless U is square and M has its size. *)
Theorem c85_sizes junk h U M a b : fresh h -> cells h U = Some a -> cells h M = Some b ->
  g_rows a <> g_cols a \/ g_rows b <> g_rows a \/ g_cols b <> g_rows a ->
  umuc junk U M h = Throw OtherExn /\ ucmu junk U M h = Throw OtherExn.
Proof.
  intros F HU HM X. pose proof (below _ _ _ F HU) as LU. pose proof (below _ _ _ F HM) as LM.
  unfold umuc, ucmu, change_basis. rewrite HU. unfold galloc.
  unfold gmemcpy. unfold put, store. cbn [next cells g_rows g_cols]. eqbs. rewrite HU. cbn [g_rows g_cols g_at].
  rewrite Nat.eqb_refl. cbn [andb]. destruct (Nat.eqb_spec (g_rows a) (g_cols a)) as [SQ|SQ]; [|split; reflexivity].
  cbn [obind cells next]. eqbs. rewrite HU. cbn [g_rows g_cols g_at]. eqbs. cbn [andb obind cells next].
  unfold zgemm. cbn [cells]. eqbs. rewrite HM. cbn [op_rows op_cols g_rows g_cols].
  rewrite Nat.eqb_refl, !andb_true_r.
  destruct (Nat.eqb_spec (g_cols b) (g_rows a)) as [Y|Y]; cbn [andb]; [|split; reflexivity].
  destruct (Nat.eqb_spec (g_rows b) (g_rows a)) as [Z|Z]; cbn [andb]; [exfalso; lia|split; reflexivity].
Qed.

(** ** conjugation *)
Lemma conj_row_run k : forall p i j h a, cells h p = Some a -> (i < g_rows a)%nat -> (j + k = g_cols a)%nat ->
  exists h' a', conj_row k p i j h = Ok h' /\ cells h' p = Some a' /\ g_rows a' = g_rows a /\ g_cols a' = g_cols a /\ next h' = next h /\ only p h h' /\
    forall x y, g_at a' x y = if Nat.eqb x i && Nat.leb j y && Nat.ltb y (j + k) then cconj (g_at a x y) else g_at a x y.
Proof.
  induction k as [|k IH]; intros p i j h a E I J; cbn [conj_row].
  - exists h, a. repeat (split; [first [reflexivity|exact E]|]). split; [intros q _; reflexivity|]. intros x y.
    replace (Nat.eqb x i && Nat.leb j y && Nat.ltb y (j + 0)) with false; [reflexivity|]. symmetry.
    destruct (Nat.eqb x i); [|reflexivity]. cbn [andb]. destruct (Nat.leb_spec j y); [|reflexivity]. cbn [andb]. apply Nat.ltb_ge. lia.
  - unfold gget. rewrite E. rewrite (proj2 (Nat.ltb_lt i _) I). rewrite (proj2 (Nat.ltb_lt j (g_cols a))) by lia. cbn [andb obind].
    unfold gset. rewrite E. rewrite (proj2 (Nat.ltb_lt i _) I). rewrite (proj2 (Nat.ltb_lt j (g_cols a))) by lia. cbn [andb obind].
    set (a1 := GM (g_rows a) (g_cols a) _). set (h1 := put h p (Some a1)).
    assert (E1 : cells h1 p = Some a1) by (unfold h1, put, store; cbn [cells]; rewrite Nat.eqb_refl; reflexivity).
    destruct (IH p i (S j) h1 a1 E1) as (h' & a' & R1 & R2 & R3 & R4 & R5 & R6 & R7); [exact I|cbn; lia|].
    exists h', a'. split; [exact R1|]. split; [exact R2|]. split; [exact R3|]. split; [exact R4|]. split; [exact R5|]. split.
    + intros q Q. rewrite (R6 q Q). unfold h1, put, store. cbn [cells]. rewrite (proj2 (Nat.eqb_neq q p) Q). reflexivity.
    + intros x y. rewrite R7. unfold a1. cbn [g_at].
      destruct (Nat.eqb_spec x i) as [->|X]; cbn [andb]; [|reflexivity].
      destruct (Nat.eqb_spec y j) as [->|Y].
      * rewrite (proj2 (Nat.leb_gt (S j) j)) by lia. cbn [andb]. rewrite (proj2 (Nat.leb_le j j)) by lia. rewrite (proj2 (Nat.ltb_lt j _)) by lia. reflexivity.
      * replace (S j + k)%nat with (j + S k)%nat by lia.
        destruct (Nat.leb_spec (S j) y), (Nat.leb_spec j y); try lia; reflexivity.
Qed.
Lemma conj_rows_run k : forall p i h a, cells h p = Some a -> (i + k = g_rows a)%nat ->
  exists h' a', conj_rows k (g_cols a) p i h = Ok h' /\ cells h' p = Some a' /\ g_rows a' = g_rows a /\ g_cols a' = g_cols a /\ next h' = next h /\ only p h h' /\
    forall x y, (x < g_rows a)%nat -> (y < g_cols a)%nat -> g_at a' x y = if Nat.leb i x then cconj (g_at a x y) else g_at a x y.
Proof.
  induction k as [|k IH]; intros p i h a E J; cbn [conj_rows].
  - exists h, a. repeat (split; [first [reflexivity|exact E]|]). split; [intros q _; reflexivity|]. intros x y X _. rewrite (proj2 (Nat.leb_gt i x)) by lia. reflexivity.
  - destruct (conj_row_run (g_cols a) p i 0 h a E) as (h1 & a1 & S1 & S2 & S3 & S4 & S5 & S6 & S7); [lia|lia|]. rewrite S1. cbn [obind].
    destruct (IH p (S i) h1 a1 S2) as (h' & a' & R1 & R2 & R3 & R4 & R5 & R6 & R7); [lia|]. rewrite S4 in *. rewrite S3 in *.
    exists h', a'. split; [exact R1|]. split; [exact R2|]. split; [exact R3|]. split; [exact R4|]. split; [congruence|]. split.
    + intros q Q. rewrite (R6 q Q). apply S6. exact Q.
    + intros x y X Y. rewrite (R7 x y X Y), S7. rewrite (proj2 (Nat.leb_le 0 y)) by lia. rewrite (proj2 (Nat.ltb_lt y (0 + g_cols a))) by lia.
      rewrite !andb_true_r. destruct (Nat.eqb_spec x i) as [->|N].
      * rewrite (proj2 (Nat.leb_gt (S i) i)) by lia. rewrite (proj2 (Nat.leb_le i i)) by lia. reflexivity.
      * destruct (Nat.leb_spec (S i) x), (Nat.leb_spec i x); try lia; reflexivity.
Qed.

(** Conjugation conjugates every entry of the matrix, of any shape, once, and touches nothing else. *)
Theorem c85_conjugate p h a : cells h p = Some a ->
  exists h' a', conjugate p h = Ok h' /\ cells h' p = Some a' /\ g_rows a' = g_rows a /\ g_cols a' = g_cols a /\ only p h h' /\
    forall i j, (i < g_rows a)%nat -> (j < g_cols a)%nat -> re (g_at a' i j) = re (g_at a i j) /\ im (g_at a' i j) = - im (g_at a i j).
Proof.
  intro E. unfold conjugate. rewrite E. destruct (conj_rows_run (g_rows a) p 0 h a E eq_refl) as (h' & a' & R1 & R2 & R3 & R4 & R5 & R6 & R7).
  exists h', a'. split; [exact R1|]. split; [exact R2|]. split; [exact R3|]. split; [exact R4|]. split; [exact R6|].
  intros i j I J. rewrite (R7 i j I J). split; reflexivity.
Qed.
(** Twice gives back the matrix. *)
Theorem c85_conjugate_twice p h a : cells h p = Some a ->
  exists h1 h2 a', conjugate p h = Ok h1 /\ conjugate p h1 = Ok h2 /\ cells h2 p = Some a' /\ only p h h2 /\
    forall i j, (i < g_rows a)%nat -> (j < g_cols a)%nat -> g_at a' i j = g_at a i j.
Proof.
  intro E. destruct (c85_conjugate p h a E) as (h1 & a1 & R1 & R2 & R3 & R4 & R5 & R6).
  destruct (c85_conjugate p h1 a1 R2) as (h2 & a2 & Q1 & Q2 & Q3 & Q4 & Q5 & Q6).
  exists h1, h2, a2. split; [exact R1|]. split; [exact Q1|]. split; [exact Q2|]. split; [intros q Q; rewrite (Q5 q Q); apply R5; exact Q|].
  intros i j I J. destruct (R6 i j I J) as (X & Y). destruct (Q6 i j) as (Z & W); [lia|lia|]. apply Ceq; [congruence|]. rewrite W, Y. ring.
Qed.

(** ** a concrete case: U multiplies the second direction by i *)
Definition exU : mat := fun i j => match i, j with 0%nat, 0%nat => mkC 1 0 | 1%nat, 1%nat => mkC 0 1 | _, _ => c0 end.
Definition exM : mat := fun i j => match i, j with 0%nat, 0%nat => mkC 1 0 | 1%nat, 1%nat => mkC 2 0 | 0%nat, 1%nat => mkC 3 4 | _, _ => c0 end.
Definition exheap : heap := Heap 2 (fun p => match p with 0%nat => Some (GM 2 2 exU) | 1%nat => Some (GM 2 2 exM) | _ => None end).
Example ex_fresh : fresh exheap.
Proof. intros p L. cbn in *. destruct p as [|[|p]]; [lia|lia|reflexivity]. Qed.
Example ex_unitary : unitary 2 exU.
Proof.
  split; intros i j I J; destruct i as [|[|i]]; try lia; destruct j as [|[|j]]; try lia; apply Ceq; cbn; ring.
Qed.
(** the two directions are different things *)
Example ex_directions : exists h1 B1 h2 B2, umuc exM 0 1 exheap = Ok h1 /\ holds h1 1 2 B1 /\ ucmu exM 0 1 exheap = Ok h2 /\ holds h2 1 2 B2 /\
  B1 0%nat 1%nat = mkC 4 (-3) /\ B2 0%nat 1%nat = mkC (-4) 3 /\ B1 1%nat 1%nat = mkC 2 0.
Proof.
  destruct (c85_umuc exM exheap 0 1 2 exU exM ex_fresh eq_refl eq_refl) as (h1 & B1 & E1 & H1 & T1 & _).
  destruct (c85_ucmu exM exheap 0 1 2 exU exM ex_fresh eq_refl eq_refl) as (h2 & B2 & E2 & H2 & T2 & _).
  exists h1, B1, h2, B2. split; [exact E1|]. split; [exact H1|]. split; [exact E2|]. split; [exact H2|].
  rewrite (T1 0%nat 1%nat), (T2 0%nat 1%nat), (T1 1%nat 1%nat) by lia.
  split; [|split]; apply Ceq; cbn; ring.
Qed.
Example ex_conj : exists h' a', conjugate 1 exheap = Ok h' /\ cells h' 1 = Some a' /\ im (g_at a' 0%nat 1%nat) = -4 /\ cells h' 0 = Some (GM 2 2 exU).
Proof.
  destruct (c85_conjugate 1 exheap (GM 2 2 exM) eq_refl) as (h' & a' & E & H & _ & _ & O & T). exists h', a'. split; [exact E|]. split; [exact H|].
  split; [destruct (T 0%nat 1%nat) as (_ & X); [cbn; lia|cbn; lia|]; rewrite X; cbn; ring|]. rewrite (O 0%nat) by lia. reflexivity.
Qed.

Print Assumptions c85_umuc.
Print Assumptions c85_ucmu.
Print Assumptions c85_inverse.
Print Assumptions c85_invariants.
Print Assumptions c85_itself.
Print Assumptions c85_sizes.
Print Assumptions c85_conjugate.
Print Assumptions c85_conjugate_twice.
