(** Properties C14 (linspace, logspace) and C15 (text tables). *)
From Coq Require Import List Arith ZArith Reals Lra Lia.
From Verif Require Import Err MarrayModel GridModel GridProofs TableModel TableProofs.
Import ListNotations.

(** ** C14 *)
Section C14.
Local Open Scope R_scope.
Theorem c14_linspace : forall Emin Emax n, (2 <= n)%nat -> Emin < Emax -> exists l, linspace Emin Emax n = Ok l /\ length l = n /\
  nth_error l 0 = Some Emin /\ nth_error l (n - 1) = Some Emax /\
  (forall i a b, nth_error l i = Some a -> nth_error l (S i) = Some b -> a < b /\ b - a = (Emax - Emin) / INR (n - 1)).
Proof.
  intros Emin Emax [|[|d]] Hn Hlt; try lia. destruct (linspace_nth Emin Emax (S d) ltac:(lia)) as (l & Hl & Hlen & Hnth).
  assert (Hd : 0 < INR (S d)) by (apply lt_0_INR; lia).
  exists l. replace (S (S d) - 1)%nat with (S d) by lia. split; [exact Hl|]. split; [exact Hlen|]. split; [|split].
  - rewrite Hnth by lia. f_equal. cbn [INR]. ring.
  - rewrite Hnth by lia. f_equal. field. lra.
  - intros i a b Ha Hb. assert (Hi : (S i < length l)%nat) by (apply nth_error_Some; congruence).
    rewrite Hnth in Ha by lia. rewrite Hnth in Hb by lia. apply (f_equal (fun o => match o with Some x => x | None => 0 end)) in Ha, Hb. cbv beta iota in Ha, Hb. rewrite <- Ha, <- Hb. clear Ha Hb.
    assert (Hs : 0 < (Emax - Emin) / INR (S d)) by (apply Rdiv_lt_0_compat; lra). rewrite (S_INR i). set (st := (Emax - Emin) / INR (S d)) in *. lra.
Qed.
Theorem c14_logspace : forall Emin Emax n, (2 <= n)%nat -> 0 < Emin < Emax -> exists l, logspace Emin Emax n = Ok l /\ length l = n /\
  nth_error l 0 = Some Emin /\ nth_error l (n - 1) = Some Emax /\
  (forall i a b, nth_error l i = Some a -> nth_error l (S i) = Some b -> 0 < a < b /\ ln b - ln a = (ln Emax - ln Emin) / INR (n - 1)).
Proof.
  intros Emin Emax [|[|d]] Hn [H0 Hlt]; try lia. destruct (logspace_nth Emin Emax (S d) H0 ltac:(lra) ltac:(lia)) as (l & Hl & Hlen & Hnth).
  assert (Hd : 0 < INR (S d)) by (apply lt_0_INR; lia).
  assert (Hln : ln Emin < ln Emax) by (apply ln_increasing; lra).
  exists l. replace (S (S d) - 1)%nat with (S d) by lia. split; [exact Hl|]. split; [exact Hlen|]. split; [|split].
  - rewrite Hnth by lia. f_equal. cbn [INR]. rewrite Rmult_0_l, Rplus_0_r. now apply exp_ln.
  - rewrite Hnth by lia. f_equal. replace (ln Emin + INR (S d) * ((ln Emax - ln Emin) / INR (S d))) with (ln Emax) by (field; lra). apply exp_ln. lra.
  - intros i a b Ha Hb. assert (Hi : (S i < length l)%nat) by (apply nth_error_Some; congruence).
    rewrite Hnth in Ha by lia. rewrite Hnth in Hb by lia. apply (f_equal (fun o => match o with Some x => x | None => 0 end)) in Ha, Hb. cbv beta iota in Ha, Hb. rewrite <- Ha, <- Hb. clear Ha Hb.
    assert (Hs : 0 < (ln Emax - ln Emin) / INR (S d)) by (apply Rdiv_lt_0_compat; lra). rewrite (S_INR i). set (st := (ln Emax - ln Emin) / INR (S d)) in *.
    split; [split; [apply exp_pos|apply exp_increasing; lra]|]. rewrite !ln_exp. lra.
Qed.
(** No node: refused. *)
Theorem c14_zero_refused : forall Emin Emax, linspace Emin Emax 0 = Throw LogicError /\ logspace Emin Emax 0 = Throw LogicError.
Proof. split; reflexivity. Qed.
(** One node: the upper end. *)
Theorem c14_single : forall Emin Emax, linspace Emin Emax 1 = Ok [Emax] /\ logspace Emin Emax 1 = Ok [Emax].
Proof. split; reflexivity. Qed.
Example c14_nonvacuous : exists l, linspace 1 3 5 = Ok l /\ nth_error l 1 = Some (3/2).
Proof. eexists. split; [reflexivity|]. cbn. f_equal. lra. Qed.
End C14.
Print Assumptions c14_linspace.
Print Assumptions c14_logspace.
Print Assumptions c14_zero_refused.
Print Assumptions c14_single.

(** ** C15 *)
(** Reading what was written gives the same shape and, element by element, what converting a number to text and back gives. *)
Theorem c15_round_trip : forall (V W : Type) (scan : W -> option V) (fmt : V -> W) rnd a r c,
  (forall v, scan (fmt v) = Some (rnd v)) -> wf a -> exts a = [r; c] -> 0 < r -> 0 < c ->
  obind (quickwrite fmt a) (quickread scan) = Ok (MArr [r; c] (map rnd (flat a))).
Proof. intros V W scan fmt. exact (@read_write V W scan fmt). Qed.
(** Rectangular files, with lines without numbers before the first row: the rows, in order. *)
Theorem c15_rectangular : forall (V W : Type) (scan : W -> option V) lead rows c, 0 < c -> rows <> [] ->
  Forall (fun l => scan_line scan l = []) lead -> Forall (fun l => length (scan_line scan l) = c) rows ->
  quickread scan (lead ++ rows) = Ok (MArr [length rows; c] (concat (map (scan_line scan) rows))).
Proof. intros V W scan. exact (@quickread_rect V W scan). Qed.
(** Ragged files are refused. *)
Theorem c15_ragged : forall (V W : Type) (scan : W -> option V) lines l1 l2 rest, scan_line scan l1 <> [] -> scan_line scan l2 <> [] ->
  length (scan_line scan l1) <> length (scan_line scan l2) -> quickread scan (lines ++ l1 :: l2 :: rest) = Throw RuntimeError.
Proof. intros V W scan. exact (@quickread_ragged V W scan). Qed.
(** A line without numbers between rows makes the file unreadable, and one at the end loses every column. *)
Theorem c15_blank_between_refuted : forall (V W : Type) (scan : W -> option V) rows c blank l2 rest, 0 < c -> rows <> [] ->
  Forall (fun l => length (scan_line scan l) = c) rows -> scan_line scan blank = [] -> scan_line scan l2 <> [] ->
  quickread scan (rows ++ blank :: l2 :: rest) = Throw RuntimeError.
Proof. intros V W scan. exact (@quickread_blank_between V W scan). Qed.
Theorem c15_blank_last_refuted : forall (V W : Type) (scan : W -> option V) rows c blank, 0 < c -> rows <> [] ->
  Forall (fun l => length (scan_line scan l) = c) rows -> scan_line scan blank = [] ->
  quickread scan (rows ++ [blank]) = Ok (MArr [length rows; 0] []).
Proof. intros V W scan. exact (@quickread_blank_last V W scan). Qed.
(** A file without numbers: no rows; no columns either if it has a line, but 2^64-1 of them if it has none. *)
Lemma read_loop_blank (V W : Type) (scan : W -> option V) lines c : Forall (fun l => scan_line scan l = []) lines -> lines <> [] -> read_loop scan lines [] c = Ok ([], 0%Z).
Proof.
  intros H. revert c. induction H as [|l lines H0 H IH]; intros c Hn; [congruence|]. cbn [read_loop]. rewrite H0. cbn [length].
  destruct lines as [|l2 lines]; [reflexivity|]. apply IH. discriminate.
Qed.
Theorem c15_no_numbers : forall (V W : Type) (scan : W -> option V) lines, Forall (fun l => scan_line scan l = []) lines -> lines <> [] ->
  quickread scan lines = Ok (MArr [0; 0] []).
Proof. intros V W scan lines H Hn. unfold quickread. now rewrite read_loop_blank. Qed.
Theorem c15_empty_file_refuted : forall (V W : Type) (scan : W -> option V), exists c, quickread scan [] = Ok (MArr [0; c] []) /\ Z.of_nat c = (2 ^ 64 - 1)%Z.
Proof. intros V W scan. exists (Z.to_nat (2 ^ 64 - 1)). split; [reflexivity|]. apply Z2Nat.id. lia. Qed.
Print Assumptions c15_no_numbers.
Print Assumptions c15_empty_file_refuted.
(** Fifteen significant digits do not determine a double: 1 and 1+2^-52 are written with the same digits. [dec15 n d] are the digits of n/d for 1<=n/d<10. *)
Definition dec15 (n d : Z) : Z := ((2 * n * 10 ^ 14 + d) / (2 * d))%Z.
Theorem c15_precision_refuted : forall scan : Z -> Z, ~ forall n, (2 ^ 52 <= n < 2 ^ 53)%Z -> scan (dec15 n (2 ^ 52)) = n.
Proof.
  intros scan H. assert (E : dec15 (2 ^ 52) (2 ^ 52) = dec15 (2 ^ 52 + 1) (2 ^ 52)) by (vm_compute; reflexivity).
  pose proof (H (2 ^ 52)%Z ltac:(lia)) as H1. pose proof (H (2 ^ 52 + 1)%Z ltac:(lia)) as H2. rewrite E in H1. lia.
Qed.
Definition scan9 (w : nat) : option nat := if Nat.ltb w 9 then Some w else None.
Example c15_nonvacuous : quickread scan9 [[9; 1]; []; [1; 2; 9]; [3; 4]] = Ok (MArr [2; 2] [1; 2; 3; 4]) /\
  quickread scan9 [[1; 2]; [3]] = Throw RuntimeError /\ quickread scan9 [[1; 2]; [9]; [3; 4]] = Throw RuntimeError /\
  quickread scan9 [[1; 2]; [3; 4]; []] = Ok (MArr [2; 0] []).
Proof. repeat split; vm_compute; reflexivity. Qed.
Print Assumptions c15_round_trip.
Print Assumptions c15_rectangular.
Print Assumptions c15_ragged.
Print Assumptions c15_blank_between_refuted.
Print Assumptions c15_blank_last_refuted.
Print Assumptions c15_precision_refuted.
