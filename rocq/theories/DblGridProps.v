(** C14 with doubles. *)
From Coq Require Import List Arith ZArith Bool Lia.
From Coq Require Import SpecFloat.
From Verif Require Import Err DblModel DblSpec DblProofs DblGridModel.
Import ListNotations.

Lemma points_length g : forall k e step, length (points g k e step) = k.
Proof. induction k as [|k IH]; intros; cbn [points length]; [reflexivity|]. now rewrite IH. Qed.
(** Whatever the ends are, numbers or not: no points are refused, else there are as many as asked, the first (of two or more) and the last as given. *)
Theorem c14_doubles : forall log exp emin emax div, div <> 0 ->
  (exists l, lin emin emax div = Ok l /\ length l = div /\ last l S754_nan = emax /\ (2 <= div -> hd S754_nan l = emin)) /\
  (exists l, log_lin log exp emin emax div = Ok l /\ length l = div /\ last l S754_nan = emax /\ (2 <= div -> hd S754_nan l = emin)).
Proof.
  intros log exp emin emax [|d] H; [congruence|]. split.
  - eexists. split; [reflexivity|]. rewrite app_length, points_length, last_last. split; [cbn; lia|]. split; [reflexivity|].
    destruct d; [lia|reflexivity].
  - destruct d as [|d].
    + eexists. split; [reflexivity|]. repeat split. lia.
    + eexists. split; [reflexivity|]. cbn [length hd]. rewrite app_length, points_length, app_comm_cons, last_last. repeat split. cbn; lia.
Qed.
Print Assumptions c14_doubles.
(** Every point between is the one before plus the same step, rounded. *)
Lemma points_nth g step : forall k e i d, i < k -> nth i (points g k e step) d = g (Nat.iter i (fun x => dadd x step) e).
Proof.
  induction k as [|k IH]; intros e i d H; [lia|]. destruct i as [|i]; [reflexivity|]. cbn [points nth]. rewrite IH by lia. f_equal.
  clear. induction i as [|i IH]; [reflexivity|]. cbn [Nat.iter nat_rect]. now f_equal.
Qed.
Theorem c14_doubles_steps : forall emin emax div l i, lin emin emax div = Ok l -> S i < div - 1 ->
  nth (S i) l S754_nan = dadd (nth i l S754_nan) (ddiv (dsub emax emin) (of_count (div - 1))).
Proof.
  intros emin emax [|d] l i E H; [discriminate|]. injection E as <-. replace (S d - 1) with d in * by lia.
  rewrite !app_nth1 by (rewrite points_length; lia). rewrite !points_nth by lia. reflexivity.
Qed.
Print Assumptions c14_doubles_steps.
(** The steps are rounded and their errors add up: the grid of 9 points from 1 to 1+6/2^52 is not increasing, and leaves the range. *)
Definition at_ulps (n : positive) : double := S754_finite false (4503599627370496 + n) (-52).
Theorem c14_doubles_refuted : exists l, lin one (at_ulps 6) 9 = Ok l /\ finite one /\ finite (at_ulps 6) /\ less one (at_ulps 6) /\
  less (nth 8 l S754_nan) (nth 7 l S754_nan) /\ nth 7 l S754_nan = at_ulps 7 /\ ~ increasing l.
Proof.
  eexists. split; [vm_compute; reflexivity|]. split; [vm_compute; reflexivity|]. split; [vm_compute; reflexivity|]. split; [vm_compute; reflexivity|].
  split; [vm_compute; reflexivity|]. split; [vm_compute; reflexivity|]. intros [_ H].
  specialize (H 7 8 ltac:(lia) ltac:(cbn; lia)). vm_compute in H. discriminate H.
Qed.
Print Assumptions c14_doubles_refuted.
(** An infinite end makes all points between infinite or NaN. *)
Theorem c14_infinite_refuted : exists l, lin one (S754_infinity false) 4 = Ok l /\ l = [one; S754_infinity false; S754_infinity false; S754_infinity false] /\ ~ increasing l.
Proof.
  eexists. split; [vm_compute; reflexivity|]. split; [reflexivity|]. intros [_ H]. specialize (H 1 2 ltac:(lia) ltac:(cbn; lia)). vm_compute in H. discriminate H.
Qed.
Print Assumptions c14_infinite_refuted.
Example c14_doubles_case : exists l, lin zero three 4 = Ok l /\ l = [zero; one; two; three].
Proof. eexists. split; [vm_compute; reflexivity|]. reflexivity. Qed.
