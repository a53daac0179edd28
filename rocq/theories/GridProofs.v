From Coq Require Import List Arith Reals Lra Lia.
From Verif Require Import Err GridModel.
Import ListNotations.
Local Open Scope R_scope.

Lemma grid_loop_length g k : forall e s, length (grid_loop g k e s) = k.
Proof. induction k; intros; cbn; auto. Qed.
Lemma grid_loop_nth g k : forall e s i, (i < k)%nat -> nth_error (grid_loop g k e s) i = Some (g (e + INR i * s)).
Proof.
  induction k as [|k IH]; intros e s [|i] H; try lia.
  - cbn. f_equal. f_equal. ring.
  - cbn [grid_loop nth_error]. rewrite IH by lia. f_equal. f_equal. rewrite S_INR. ring.
Qed.

Lemma linspace_nth Emin Emax d : (1 <= d)%nat -> exists l, linspace Emin Emax (S d) = Ok l /\ length l = S d /\
  forall i, (i <= d)%nat -> nth_error l i = Some (Emin + INR i * ((Emax - Emin) / INR d)).
Proof.
  intros Hd. eexists. split; [reflexivity|]. split.
  - rewrite app_length, grid_loop_length. cbn. lia.
  - intros i Hi. destruct (Nat.eq_dec i d) as [->|Hne].
    + rewrite nth_error_app2; rewrite grid_loop_length; [|lia]. rewrite Nat.sub_diag. cbn. f_equal.
      field. apply not_0_INR. lia.
    + rewrite nth_error_app1; [|rewrite grid_loop_length; lia]. apply grid_loop_nth. lia.
Qed.
Lemma logspace_nth Emin Emax d : 0 < Emin -> 0 < Emax -> (1 <= d)%nat -> exists l, logspace Emin Emax (S d) = Ok l /\ length l = S d /\
  forall i, (i <= d)%nat -> nth_error l i = Some (exp (ln Emin + INR i * ((ln Emax - ln Emin) / INR d))).
Proof.
  intros H1 H2 Hd. destruct d as [|d]; [lia|]. eexists. split; [reflexivity|].
  split.
  - cbn [length]. rewrite app_length, grid_loop_length. cbn. lia.
  - intros i Hi. destruct i as [|i].
    + cbn. f_equal. rewrite Rmult_0_l, Rplus_0_r. now rewrite exp_ln.
    + cbn [nth_error]. destruct (Nat.eq_dec i d) as [->|Hne].
      * rewrite nth_error_app2; rewrite grid_loop_length; [|lia]. rewrite Nat.sub_diag. cbn [nth_error]. f_equal.
        replace (ln Emin + INR (S d) * ((ln Emax - ln Emin) / INR (S d))) with (ln Emax).
        -- now rewrite exp_ln.
        -- field. apply not_0_INR. lia.
      * rewrite nth_error_app1; [|rewrite grid_loop_length; lia]. rewrite grid_loop_nth by lia. f_equal. f_equal. rewrite (S_INR i). ring.
Qed.
