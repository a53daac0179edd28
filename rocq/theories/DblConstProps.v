(** C99: a table of one value, in doubles. *)
From Coq Require Import List Arith ZArith Bool Lia.
From Coq Require Import SpecFloat.
From Verif Require Import Err DblModel DblSpec DblProofs DblProps.
Import ListNotations.

Definition a_zero (x : double) : Prop := exists s, x = S754_zero s.
Lemma z_sub a b : a_zero a -> a_zero b -> a_zero (dsub a b).
Proof. intros [s ->] [t ->]. destruct s, t; [now exists false|now exists true|now exists false|now exists false]. Qed.
Lemma z_add a b : a_zero a -> a_zero b -> a_zero (dadd a b).
Proof. intros [s ->] [t ->]. destruct s, t; [now exists true|now exists false|now exists false|now exists false]. Qed.
Lemma z_mul a b : finite a -> a_zero b -> a_zero (dmul a b).
Proof. intros F [s ->]. exact (mul_zero a s F). Qed.
Lemma z_mul' a b : a_zero a -> finite b -> a_zero (dmul a b).
Proof. intros [s ->] F. destruct b as [b|b| |b m e]; cbn [finite] in F; try tauto; eexists; reflexivity. Qed.
Lemma z_abs a : a_zero a -> a_zero (dabs a).
Proof. intros [s ->]. now exists false. Qed.
Lemma z_div a h : a_zero a -> less zero h -> a_zero (ddiv a h).
Proof. intros [s ->] H. destruct h as [b|b| |b m e]; try discriminate H; eexists; reflexivity. Qed.
Lemma z_pos a : a_zero a -> dlt zero a = false.
Proof. intros [s ->]. reflexivity. Qed.
Lemma z_mean L NE a b other : a_zero NE -> a_zero other -> a_zero (mean L NE a b other).
Proof. intros N O. unfold mean. now rewrite (z_pos NE N). Qed.

Section Constant.
Variables (xs : list double) (v : double).
Hypothesis enough : 3 <= length xs.
Hypothesis vf : finite v.
Let gap i := dsub (nth (S i) xs S754_nan) (nth i xs S754_nan).
(** Neighbouring abscissas differ by more than nothing, and so does the square of the difference. *)
Hypothesis apart : forall i, S i < length xs -> less zero (gap i) /\ less zero (dmul (gap i) (gap i)).
Let ys := repeat v (length xs).

Lemma at_ys i : i < length xs -> at_place ys i = v.
Proof. intro H. unfold at_place, ys. now apply nth_repeat_lt || (rewrite (nth_indep _ _ v) by now rewrite repeat_length); apply nth_repeat. Qed.
Lemma slope_of_z i : S i < length xs -> a_zero (slope_of xs ys i).
Proof.
  intro H. unfold slope_of. rewrite !at_ys by lia. apply z_div; [|exact (proj1 (apart i H))]. destruct (sub_self v vf) as [s ->]. now exists s.
Qed.
Lemma three_f : finite three. Proof. exact I. Qed.
Lemma two_f : finite two. Proof. exact I. Qed.
Lemma slope_z i : i <= length xs + 2 -> a_zero (slope xs ys i).
Proof.
  intro H. unfold slope. destruct i as [|[|i]].
  - apply z_sub; apply z_mul; try exact I; apply slope_of_z; lia.
  - apply z_sub; [apply z_mul; [exact I|]|]; apply slope_of_z; lia.
  - destruct (Nat.eqb_spec i (length xs - 1)); [apply z_sub; [apply z_mul; [exact I|]|]; apply slope_of_z; lia|].
    destruct (Nat.eqb_spec i (length xs)); [apply z_sub; apply z_mul; try exact I; apply slope_of_z; lia|]. apply slope_of_z. lia.
Qed.
Lemma turn_z i L NE : S i < length xs -> (a_zero L /\ a_zero NE) \/ dle zero L = false ->
  exists s L' NE', turn xs ys i L NE = Ok (s, L', NE') /\ a_zero L' /\ a_zero NE' /\ p0 s = v /\ a_zero (p1 s) /\ a_zero (p2 s) /\ a_zero (p3 s).
Proof.
  intros H HL. unfold turn. cbv zeta. unfold at_place, nan. fold (gap i). destruct (apart i H) as [G1 G2].
  assert (E1 : dlt (gap i) zero = false). { destruct (gap i) as [b|[]| |[] m e]; try discriminate G1; reflexivity. }
  assert (E2 : deq (gap i) zero = false). { destruct (gap i) as [b|[]| |[] m e]; try discriminate G1; reflexivity. }
  rewrite E1, E2.
  pose proof (slope_z i ltac:(lia)) as Z0. pose proof (slope_z (1 + i) ltac:(lia)) as Z1. pose proof (slope_z (2 + i) ltac:(lia)) as Z2.
  pose proof (slope_z (3 + i) ltac:(lia)) as Z3. pose proof (slope_z (4 + i) ltac:(lia)) as Z4.
  generalize dependent (slope xs ys i). generalize dependent (slope xs ys (1 + i)). generalize dependent (slope xs ys (2 + i)).
  generalize dependent (slope xs ys (3 + i)). generalize dependent (slope xs ys (4 + i)). intros m4 Z4 m3 Z3 m2 Z2 m1 Z1 m0 Z0.
  set (LN := if dle zero L then (L, NE) else _).
  assert (ZN : a_zero (snd LN)).
  { unfold LN. destruct HL as [[A B]|A]; [destruct A as [s A]; subst L|rewrite A].
    - change (dle zero (S754_zero s)) with true. exact B.
    - cbn [snd]. apply z_add; apply z_abs, z_sub; assumption. }
  destruct LN as [Li NEi]. cbn [snd] in ZN. cbv zeta.
  assert (ZR : a_zero (mean Li NEi m1 m2 m2)) by (apply z_mean; assumption).
  assert (ZL' : a_zero (dabs (dsub m1 m2))) by (apply z_abs, z_sub; assumption).
  assert (ZN' : a_zero (dadd (dabs (dsub m1 m2)) (dabs (dsub m3 m4)))) by (apply z_add; apply z_abs, z_sub; assumption).
  assert (ZL : a_zero (mean (dabs (dsub m1 m2)) (dadd (dabs (dsub m1 m2)) (dabs (dsub m3 m4))) m2 m3 m2)) by (apply z_mean; assumption).
  eexists _, _, _. split; [reflexivity|]. split; [exact ZL'|]. split; [exact ZN'|]. cbn [p0 p1 p2 p3].
  split; [exact (at_ys i ltac:(lia))|]. split; [exact ZR|]. split.
  - apply z_div; [|exact G1]. apply z_sub; [apply z_sub; apply z_mul; try exact I; assumption|exact ZL].
  - apply z_div; [|exact G2]. apply z_sub; [apply z_add; assumption|apply z_mul; [exact I|assumption]].
Qed.
Definition flat (s : piece) : Prop := p0 s = v /\ a_zero (p1 s) /\ a_zero (p2 s) /\ a_zero (p3 s).
Lemma turns_z : forall left i L NE, i + left < length xs -> (a_zero L /\ a_zero NE) \/ dle zero L = false ->
  exists l, turns xs ys i left L NE = Ok l /\ Forall flat l.
Proof.
  induction left as [|left IH]; intros i L NE H HL; cbn [turns]; [exists []; split; [reflexivity|constructor]|].
  destruct (turn_z i L NE ltac:(lia) HL) as (s & L' & NE' & -> & A & B & F).
  destruct (IH (S i) L' NE' ltac:(lia) (or_introl (conj A B))) as (l & -> & Fl). exists (s :: l). split; [reflexivity|]. apply Forall_cons; assumption.
Qed.
End Constant.

Lemma flat_at v s x : finite v -> flat v s -> finite (dsub x (px s)) -> same (piece_at s x) v.
Proof.
  intros F (E & Z1 & Z2 & Z3) D. unfold piece_at. rewrite E. set (d := dsub x (px s)) in *.
  assert (Z : a_zero (dmul (dadd (dmul (dadd (dmul (p3 s) d) (p2 s)) d) (p1 s)) d)).
  { apply z_mul'; [|exact D]. apply z_add; [|exact Z1]. apply z_mul'; [|exact D]. apply z_add; [|exact Z2]. apply z_mul'; assumption. }
  destruct Z as [b ->]. now destruct (zero_add b v F).
Qed.
(** A table of one value is that value at every question which is not too far away. *)
Theorem c99_constant : forall (xs : list double) v, 3 <= length xs -> finite v ->
  (forall i, S i < length xs -> let gap := dsub (nth (S i) xs S754_nan) (nth i xs S754_nan) in less zero gap /\ less zero (dmul gap gap)) ->
  exists segs, spline_of xs (repeat v (length xs)) = Ok segs /\
  forall x, (forall i, i < length xs -> finite (dsub x (nth i xs S754_nan))) -> exists w, spline_at segs x = Ok w /\ same w v.
Proof.
  intros xs v Hn Hv Ha. 
  destruct (turns_z xs v Hn Hv Ha (length xs - 1) 0 (dopp one) (dopp one) ltac:(lia) (or_intror eq_refl)) as (l & E & Fl).
  assert (Es : spline_of xs (repeat v (length xs)) = Ok l).
  { unfold spline_of. rewrite repeat_length, Nat.eqb_refl. cbn [negb]. replace (length xs <? 3) with false by (symmetry; apply Nat.ltb_ge; exact Hn). exact E. }
  exists l. split; [exact Es|]. intros x Hx.
  destruct (c99_spline_made xs (repeat v (length xs))) as [(l' & E' & _ & _ & Ll & Hl & _)|[E' _]]; [|congruence]. rewrite Es in E'. injection E' as <-.
  assert (Hne : l <> []).
  { intros ->. cbn [length] in Ll. lia. }
  destruct (spline_inside l x Hne) as (j & s & Hj & -> & _). exists (piece_at s x). split; [reflexivity|].
  destruct (Hl j s Hj) as [Ex _]. apply flat_at; [exact Hv| |].
  - rewrite Forall_forall in Fl. apply Fl. now apply nth_error_In in Hj.
  - rewrite Ex. apply Hx. assert (j < length l) by (apply nth_error_Some; congruence). lia.
Qed.
Print Assumptions c99_constant.
(** If the square of a difference is too small to be written down, the answer is NaN. *)
Definition tiny (e : Z) : double := S754_finite false 4503599627370496 e.
Theorem c99_constant_refuted : exists segs, spline_of [zero; tiny (-650); tiny (-649)] [one; one; one] = Ok segs /\
  increasing [zero; tiny (-650); tiny (-649)] /\ spline_at segs (tiny (-650)) = Ok S754_nan.
Proof.
  eexists. split; [vm_compute; reflexivity|]. split; [|vm_compute; reflexivity].
  split; [repeat constructor; discriminate|]. intros [|[|[|i]]] [|[|[|j]]] H G; cbn in G; try lia; vm_compute; reflexivity.
Qed.
Print Assumptions c99_constant_refuted.
Example c99_constant_case : exists segs, spline_of [zero; one; three] [two; two; two] = Ok segs /\ spline_at segs (tiny (-51)) = Ok two /\
  forall i, S i < 3 -> let gap := dsub (nth (S i) [zero; one; three] S754_nan) (nth i [zero; one; three] S754_nan) in less zero gap /\ less zero (dmul gap gap).
Proof.
  eexists. split; [vm_compute; reflexivity|]. split; [vm_compute; reflexivity|]. intros [|[|i]] H; [split; vm_compute; reflexivity|split; vm_compute; reflexivity|lia].
Qed.
