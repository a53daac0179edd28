(** Riemann integrals of the standard library: values of integrals of functions with a known antiderivative, and of piecewise ones. *)
From Coq Require Import Reals Lra Lia List RiemannInt RiemannInt_SF.
Local Open Scope R_scope.

(** The integral of [f] from [a] to [b] exists and is [I]. *)
Definition integral (f : R -> R) (a b I : R) : Prop := exists pr : Riemann_integrable f a b, RiemannInt pr = I.

Lemma integral_unique f a b I J : integral f a b I -> integral f a b J -> I = J.
Proof. intros [p <-] [q <-]. apply RiemannInt_P5. Qed.
Lemma integral_chasles f a b c I J : a <= b -> b <= c -> integral f a b I -> integral f b c J -> integral f a c (I + J).
Proof.
  intros Hab Hbc [p <-] [q <-]. exists (RiemannInt_P24 p q). symmetry. apply RiemannInt_P26.
Qed.
Lemma integral_linear f g a b l I J : a <= b -> integral f a b I -> integral g a b J -> integral (fun x => f x + l * g x) a b (I + l * J).
Proof. intros Hab [p <-] [q <-]. exists (RiemannInt_P10 l p q). apply RiemannInt_P13. Qed.

Lemma null_integrable f a b : a <= b -> (forall x, a < x < b -> f x = 0) -> Riemann_integrable f a b.
Proof.
  intros Hab Hf eps.
  assert (Hs : IsStepFun f a b).
  { exists (a :: b :: nil)%list. exists (0 :: nil)%list. repeat split.
    - intros i Hi. destruct i as [|i]; cbn in *; [exact Hab|lia].
    - cbn. unfold Rmin. destruct Rle_dec; [reflexivity|contradiction].
    - cbn. unfold Rmax. destruct Rle_dec; [reflexivity|contradiction].
    - intros i Hi x Hx. destruct i as [|i]; cbn in *; [unfold open_interval in Hx; cbn in Hx; now apply Hf|lia]. }
  exists (mkStepFun Hs). exists (mkStepFun (StepFun_P4 a b 0)). split.
  - intros t _. cbn. unfold Rminus. rewrite Rplus_opp_r, Rabs_R0. unfold fct_cte. lra.
  - rewrite StepFun_P18, Rmult_0_l, Rabs_R0. apply cond_pos.
Qed.
(** The values at the ends do not matter. *)
Lemma integral_ext f g a b I : a <= b -> (forall x, a < x < b -> f x = g x) -> integral g a b I -> integral f a b I.
Proof.
  intros Hab H [p <-].
  assert (N : Riemann_integrable (fun x => f x - g x) a b). { apply null_integrable; [exact Hab|]. intros x Hx. rewrite H by exact Hx. lra. }
  assert (Q : Riemann_integrable f a b).
  { refine (@Riemann_integrable_ext (fun x => g x + 1 * (f x - g x)) f a b _ (RiemannInt_P10 1 p N)). intros x _. ring. }
  exists Q. apply RiemannInt_P18; assumption.
Qed.
Lemma integral_antiderivative F f a b : a <= b -> (forall x, derivable_pt_lim F x (f x)) -> continuity f -> integral f a b (F b - F a).
Proof.
  intros Hab HF Hc.
  assert (D : derivable F) by (intros x; exists (f x); apply HF).
  assert (E : forall x, derive F D x = f x). { intros x. unfold derive. apply derive_pt_eq_0. apply HF. }
  assert (C : continuity (derive F D)).
  { intros x. apply (continuity_pt_locally_ext f _ 1 x Rlt_0_1); [|exact (Hc x)]. intros y _. now rewrite E. }
  pose (G := @mkC1 F D C).
  assert (p : Riemann_integrable (derive G (diff0 G)) a b) by (apply continuity_implies_RiemannInt; [exact Hab|]; intros x _; exact (C x)).
  exists (@Riemann_integrable_ext _ f a b (fun x _ => E x) p). change (F b - F a) with (G b - G a). rewrite <- (FTC_Riemann G p).
  apply RiemannInt_P18; [exact Hab|]. intros x _. symmetry. apply E.
Qed.
Lemma integral_const c a b : a <= b -> integral (fun _ => c) a b (c * (b - a)).
Proof.
  intros Hab. replace (c * (b - a)) with ((fun x => c * x) b - (fun x => c * x) a) by ring.
  apply (integral_antiderivative (fun x => c * x)); [exact Hab| |apply continuity_const; intros x y; reflexivity].
  intros x. pose proof (derivable_pt_lim_scal id c x 1 (derivable_pt_lim_id x)) as H. rewrite Rmult_1_r in H. exact H.
Qed.
