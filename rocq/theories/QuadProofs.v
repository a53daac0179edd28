(** Proofs about the adaptive quadrature. *)
From Coq Require Import List Arith Bool Permutation Reals Lra Lia.
From Verif Require Import Err QuadModel.
Import ListNotations.
Local Open Scope R_scope.

Lemma alpha_sq : alpha * alpha = 2 / 3.
Proof. unfold alpha. apply sqrt_sqrt. lra. Qed.
Lemma beta_sq : beta * beta = 1 / 5.
Proof.
  unfold beta. assert (H : sqrt 5 * sqrt 5 = 5) by (apply sqrt_sqrt; lra). assert (H0 : sqrt 5 <> 0) by (intros E; rewrite E in H; lra).
  replace (1 / sqrt 5 * (1 / sqrt 5)) with (1 / (sqrt 5 * sqrt 5)) by (field; assumption). rewrite H. reflexivity.
Qed.
Lemma beta_range : 0 < beta < 1 / 2.
Proof.
  pose proof beta_sq as H. assert (Hp : 0 < beta) by (unfold beta; apply Rdiv_lt_0_compat; [lra|apply sqrt_lt_R0; lra]).
  split; [exact Hp|]. destruct (Rlt_dec beta (1 / 2)) as [|Hn]; [assumption|]. exfalso.
  assert (1 / 2 * (1 / 2) <= beta * beta) by (apply Rmult_le_compat; lra). lra.
Qed.
Lemma mid_eq a b : midpoint a b = (a + b) / 2.
Proof. unfold midpoint. field. Qed.

(** *** Polynomials, constant term first, and their integrals *)
Fixpoint peval (c : list R) (x : R) : R := match c with [] => 0 | c0 :: cs => c0 + x * peval cs x end.
Fixpoint prim (k : nat) (c : list R) (x : R) : R := match c with [] => 0 | c0 :: cs => c0 * (x ^ S k / INR (S k)) + prim (S k) cs x end.
Lemma prim_derivable c : forall k x, derivable_pt_lim (prim k c) x (x ^ k * peval c x).
Proof.
  induction c as [|c0 cs IH]; intros k x; cbn [prim peval].
  - rewrite Rmult_0_r. apply derivable_pt_lim_const.
  - replace (x ^ k * (c0 + x * peval cs x)) with (c0 * (INR (S k) * x ^ pred (S k) * / INR (S k)) + x ^ S k * peval cs x)
      by (cbn [pred pow]; field; apply not_0_INR; lia).
    apply (derivable_pt_lim_plus (fun x => c0 * (x ^ S k / INR (S k))) (prim (S k) cs)); [|apply IH].
    apply (derivable_pt_lim_scal (fun x => x ^ S k / INR (S k)) c0).
    intros e He. assert (H : derivable_pt_lim (fun x => (/ INR (S k)) * x ^ S k) x (/ INR (S k) * (INR (S k) * x ^ pred (S k)))).
    { apply (derivable_pt_lim_scal (fun x => x ^ S k)). apply derivable_pt_lim_pow. }
    destruct (H e He) as (d & Hd). exists d. intros h H0 H1. specialize (Hd h H0 H1).
    replace (((x + h) ^ S k / INR (S k) - x ^ S k / INR (S k)) / h - INR (S k) * x ^ pred (S k) * / INR (S k))
      with ((/ INR (S k) * (x + h) ^ S k - / INR (S k) * x ^ S k) / h - / INR (S k) * (INR (S k) * x ^ pred (S k))) by (unfold Rdiv; ring).
    exact Hd.
Qed.

Section Rule.
Variables a b : R.
(** The 4- and 7-point rules with the integrand's own values at the ends. *)
Definition rule7 (f : R -> R) : R := value (evaluate f a b (f a) (f b)).
Definition rule4 (f : R -> R) : R := est2 (evaluate f a b (f a) (f b)).
Lemma rule7_lin f g k : rule7 (fun x => k * f x + g x) = k * rule7 f + rule7 g.
Proof. unfold rule7. cbn [evaluate value yv]. field. Qed.
Lemma rule4_lin f g k : rule4 (fun x => k * f x + g x) = k * rule4 f + rule4 g.
Proof. unfold rule4. cbn [evaluate est2 yv]. field. Qed.
Lemma rule7_ext f g : (forall x, f x = g x) -> rule7 f = rule7 g.
Proof. intros H. unfold rule7. cbn [evaluate value yv]. rewrite !H. reflexivity. Qed.
Lemma rule4_ext f g : (forall x, f x = g x) -> rule4 f = rule4 g.
Proof. intros H. unfold rule4. cbn [evaluate est2 yv]. rewrite !H. reflexivity. Qed.

(** In local coordinates. *)
Let mm := (a + b) / 2.
Let hh := (b - a) / 2.
Lemma pt_eq i : pt a b i = mm + abscissa i * hh.
Proof. unfold pt. now rewrite mid_eq. Qed.
Lemma rule7_local f : rule7 f = hh / 1470 * (77 * (f (mm + hh) + f (mm - hh)) + 432 * (f (mm + alpha * hh) + f (mm - alpha * hh)) + 625 * (f (mm + beta * hh) + f (mm - beta * hh)) + 672 * f mm).
Proof.
  unfold rule7. cbn [evaluate value yv]. rewrite !pt_eq. unfold abscissa. cbn [nth].
  replace (mm + 0 * hh) with mm by ring. replace (mm + - alpha * hh) with (mm - alpha * hh) by ring. replace (mm + - beta * hh) with (mm - beta * hh) by ring.
  replace (mm + hh) with b by (unfold mm, hh; field). replace (mm - hh) with a by (unfold mm, hh; field). fold hh. ring.
Qed.
Lemma rule4_local f : rule4 f = hh / 6 * (f (mm + hh) + f (mm - hh) + 5 * (f (mm + beta * hh) + f (mm - beta * hh))).
Proof.
  unfold rule4. cbn [evaluate est2 yv]. rewrite !pt_eq. unfold abscissa. cbn [nth].
  replace (mm + - beta * hh) with (mm - beta * hh) by ring.
  replace (mm + hh) with b by (unfold mm, hh; field). replace (mm - hh) with a by (unfold mm, hh; field). fold hh. ring.
Qed.
End Rule.

(** The sum of the k-th powers of m+sh and m-sh, as a polynomial in q=s^2. *)
Fixpoint ps2 (q m h : R) (k : nat) : R * R :=
  match k with
  | O => (2, 2 * m)
  | S k' => let (u, v) := ps2 q m h k' in (v, 2 * m * v - (m * m - q * (h * h)) * u)
  end.
Definition ps q m h k := fst (ps2 q m h k).
Lemma ps2_eq s q m h k : s * s = q -> ps2 q m h k = ((m + s * h) ^ k + (m - s * h) ^ k, (m + s * h) ^ S k + (m - s * h) ^ S k).
Proof.
  intros <-. induction k as [|k IH]; cbn [ps2]; [f_equal; cbn; ring|]. rewrite IH. f_equal. cbn [pow]. ring.
Qed.
Lemma ps_eq s q m h k : s * s = q -> (m + s * h) ^ k + (m - s * h) ^ k = ps q m h k.
Proof. intros H. unfold ps. now rewrite (ps2_eq s q m h k H). Qed.
Lemma ps_one m h k : (m + h) ^ k + (m - h) ^ k = ps 1 m h k.
Proof. rewrite <- (ps_eq 1 1) by ring. now rewrite Rmult_1_l. Qed.

Lemma mono7 a b k : (k <= 9)%nat -> rule7 a b (fun x => x ^ k) = (b ^ S k - a ^ S k) / INR (S k).
Proof.
  intros Hk. rewrite rule7_local. set (m := (a + b) / 2). set (h := (b - a) / 2).
  replace b with (m + h) by (unfold m, h; field). replace a with (m - h) at 1 by (unfold m, h; field).
  clearbody m h. clear a b. rewrite ps_one, (ps_eq alpha (2 / 3)), (ps_eq beta (1 / 5)) by (apply alpha_sq || apply beta_sq).
  do 10 (destruct k as [|k]; [cbn [INR pow ps ps2 fst]; field|]). lia.
Qed.
Lemma mono4 a b k : (k <= 5)%nat -> rule4 a b (fun x => x ^ k) = (b ^ S k - a ^ S k) / INR (S k).
Proof.
  intros Hk. rewrite rule4_local. set (m := (a + b) / 2). set (h := (b - a) / 2).
  replace b with (m + h) by (unfold m, h; field). replace a with (m - h) at 1 by (unfold m, h; field).
  clearbody m h. clear a b. rewrite ps_one, (ps_eq beta (1 / 5)) by apply beta_sq.
  do 6 (destruct k as [|k]; [cbn [INR pow ps ps2 fst]; field|]). lia.
Qed.
Lemma poly7 a b c : forall k, (k + length c <= 10)%nat -> rule7 a b (fun x => x ^ k * peval c x) = prim k c b - prim k c a.
Proof.
  induction c as [|c0 cs IH]; intros k Hk.
  - rewrite (rule7_ext a b _ (fun _ => 0 * 0 + 0)) by (intros; cbn; ring). rewrite rule7_local. cbn. field.
  - rewrite (rule7_ext a b _ (fun x => c0 * x ^ k + x ^ S k * peval cs x)) by (intros; cbn; ring). cbn [length] in Hk.
    rewrite rule7_lin, mono7, IH by lia. cbn [prim]. field. apply not_0_INR. lia.
Qed.
Lemma poly4 a b c : forall k, (k + length c <= 6)%nat -> rule4 a b (fun x => x ^ k * peval c x) = prim k c b - prim k c a.
Proof.
  induction c as [|c0 cs IH]; intros k Hk.
  - rewrite (rule4_ext a b _ (fun _ => 0 * 0 + 0)) by (intros; cbn; ring). rewrite rule4_local. cbn. field.
  - rewrite (rule4_ext a b _ (fun x => c0 * x ^ k + x ^ S k * peval cs x)) by (intros; cbn; ring). cbn [length] in Hk.
    rewrite rule4_lin, mono4, IH by lia. cbn [prim]. field. apply not_0_INR. lia.
Qed.
Lemma poly7_exact a b c : (length c <= 10)%nat -> rule7 a b (peval c) = prim 0 c b - prim 0 c a.
Proof. intros H. rewrite <- poly7 by exact H. apply rule7_ext. intros x. cbn. ring. Qed.
Lemma poly4_exact a b c : (length c <= 6)%nat -> rule4 a b (peval c) = prim 0 c b - prim 0 c a.
Proof. intros H. rewrite <- poly4 by exact H. apply rule4_ext. intros x. cbn. ring. Qed.

(** *** Chains of intervals *)
Section Loop.
Variable f : R -> R.
Definition genuine (i : interval) : Prop := i = evaluate f (ia i) (ib i) (f (ia i)) (f (ib i)).
Fixpoint chain (p : R) (l : list interval) (q : R) : Prop :=
  match l with [] => p = q | i :: l' => ia i = p /\ ia i < ib i /\ chain (ib i) l' q end.
Lemma chain_app l1 : forall p l2 q, chain p (l1 ++ l2) q <-> exists r, chain p l1 r /\ chain r l2 q.
Proof.
  induction l1 as [|i l1 IH]; intros p l2 q; cbn.
  - split; [intros H; exists p; auto|intros (r & -> & H); exact H].
  - rewrite IH. split; [intros (H1 & H2 & r & H3 & H4); exists r; auto|intros (r & (H1 & H2 & H3) & H4); eauto 6].
Qed.
Lemma pt_4 a b : pt a b 4 = (a + b) / 2 - beta * ((b - a) / 2).
Proof. rewrite pt_eq. unfold abscissa. cbn [nth]. ring. Qed.
Lemma pt_8 a b : pt a b 8 = (a + b) / 2 + beta * ((b - a) / 2).
Proof. rewrite pt_eq. unfold abscissa. cbn [nth]. ring. Qed.
Lemma pt_order a b : a < b -> a < pt a b 4 /\ pt a b 4 < pt a b 8 /\ pt a b 8 < b.
Proof.
  intros H. rewrite pt_4, pt_8. pose proof beta_range as [B1 B2].
  assert (0 < beta * ((b - a) / 2)) by (apply Rmult_lt_0_compat; lra).
  assert (beta * ((b - a) / 2) < 1 * ((b - a) / 2)) by (apply Rmult_lt_compat_r; lra). lra.
Qed.
Lemma split_chain i : genuine i -> ia i < ib i -> chain (ia i) (split3 f i) (ib i) /\ Forall genuine (split3 f i).
Proof.
  intros G H. pose proof (pt_order (ia i) (ib i) H) as (O1 & O2 & O3). unfold genuine in G.
  assert (E1 : spa i = pt (ia i) (ib i) 4) by (rewrite G at 1; reflexivity). assert (E2 : spb i = pt (ia i) (ib i) 8) by (rewrite G at 1; reflexivity).
  assert (F1 : fspa i = f (spa i)) by (rewrite E1, G at 1; reflexivity). assert (F2 : fspb i = f (spb i)) by (rewrite E2, G at 1; reflexivity).
  assert (Fa : ifa i = f (ia i)) by (rewrite G at 1; reflexivity). assert (Fb : ifb i = f (ib i)) by (rewrite G at 1; reflexivity).
  unfold split3. split.
  - cbn [chain evaluate ia ib]. rewrite E1, E2. repeat split; lra.
  - rewrite F1, F2, Fa, Fb. repeat constructor.
Qed.

(** Intervals whose contribution has been added up. *)
Definition sum_value (l : list interval) : R := fold_right (fun i r => value i + r) 0 l.
Definition sum_unc (l : list interval) : R := fold_right (fun i r => (value i - est2 i) * (value i - est2 i) + r) 0 l.
Definition accepted_ok (tol : R) (i : interval) : Prop := badness i tol <= 0 \/ can_subdivide i = false.
Definition tot_inv (tol : R) (t : totals) (acc : list interval) : Prop :=
  total t = sum_value acc /\ comp t = 0 /\ unc t = sum_unc acc /\ oot t = existsb (fun i => negb (can_subdivide i)) acc /\ Forall (accepted_ok tol) acc.
Lemma process_inv tol t stack i acc : tot_inv tol t acc -> let '(t', stack') := process tol (t, stack) i in
  exists acc', tot_inv tol t' acc' /\ Permutation (i :: acc ++ stack) (acc' ++ stack') /\
  ((stack' = stack) \/ (stack' = i :: stack /\ can_subdivide i = true)).
Proof.
  intros (H1 & H2 & H3 & H4 & H5). unfold process. destruct (Rle_dec (badness i tol) 0) as [Hb|Hb]; cbn [orb].
  - exists (i :: acc). split; [|split; [apply Permutation_refl|now left]].
    unfold tot_inv, accumulate. cbn [total comp unc oot sum_value sum_unc fold_right existsb]. rewrite H1, H2, H3, H4.
    unfold sum_value, sum_unc. repeat split; try ring; [|constructor; [now left|exact H5]]. rewrite orb_comm. reflexivity.
  - destruct (can_subdivide i) eqn:Ec; cbn [negb].
    + exists acc. split; [unfold tot_inv; auto|]. split; [|right; auto]. apply Permutation_middle.
    + exists (i :: acc). split; [|split; [apply Permutation_refl|now left]].
      unfold tot_inv, accumulate. cbn [total comp unc oot sum_value sum_unc fold_right existsb]. rewrite H1, H2, H3, H4, Ec.
      unfold sum_value, sum_unc. repeat split; try ring; [|constructor; [now right|exact H5]]. rewrite orb_comm. reflexivity.
Qed.
Lemma fold_inv tol l : forall t stack acc, tot_inv tol t acc -> let '(t', stack') := fold_left (process tol) l (t, stack) in
  exists acc', tot_inv tol t' acc' /\ Permutation (l ++ acc ++ stack) (acc' ++ stack') /\
  exists pushed, stack' = pushed ++ stack /\ (length pushed <= length l)%nat /\ Forall (fun i => In i l /\ can_subdivide i = true) pushed.
Proof.
  induction l as [|i l IH]; intros t stack acc H; cbn [fold_left].
  - exists acc. split; [exact H|]. split; [apply Permutation_refl|]. exists []. repeat split; auto.
  - pose proof (process_inv tol t stack i acc H) as P. destruct (process tol (t, stack) i) as [t1 s1]. destruct P as (acc1 & H1 & P1 & Q1).
    specialize (IH t1 s1 acc1 H1). destruct (fold_left (process tol) l (t1, s1)) as [t2 s2]. destruct IH as (acc2 & H2 & P2 & pushed & Q2 & Hl & Hp).
    exists acc2. split; [exact H2|]. split.
    + cbn. rewrite <- P2. rewrite <- P1. apply Permutation_middle.
    + destruct Q1 as [->|[-> Hc]].
      * exists pushed. split; [exact Q2|]. split; [cbn; lia|]. eapply Forall_impl; [|exact Hp]. cbn. tauto.
      * exists (pushed ++ [i]). split; [now rewrite Q2, <- app_assoc|]. split; [rewrite app_length; cbn; lia|].
        apply Forall_app. split; [eapply Forall_impl; [|exact Hp]; cbn; tauto|]. constructor; [cbn; auto|constructor].
Qed.

Lemma sum_value_perm l l' : Permutation l l' -> sum_value l = sum_value l'.
Proof. unfold sum_value. induction 1; cbn; lra. Qed.
Lemma sum_unc_perm l l' : Permutation l l' -> sum_unc l = sum_unc l'.
Proof. unfold sum_unc. induction 1; cbn; lra. Qed.
Lemma existsb_perm {A} (p : A -> bool) l l' : Permutation l l' -> existsb p l = existsb p l'.
Proof. induction 1; cbn; trivial; [now rewrite IHPermutation|destruct (p x), (p y); reflexivity|congruence]. Qed.
Lemma loop_partition tol p q fuel : forall t stack acc l r, tot_inv tol t acc -> chain p l q -> Forall genuine l -> Permutation l (acc ++ stack) ->
  quad_loop f fuel tol t stack = Some r -> exists l', chain p l' q /\ Forall genuine l' /\ Forall (accepted_ok tol) l' /\
    total r = sum_value l' /\ unc r = sum_unc l' /\ oot r = existsb (fun i => negb (can_subdivide i)) l'.
Proof.
  induction fuel as [|fuel IH]; intros t stack acc l r Ht Hc Hg Hp Hr; (destruct stack as [|i rest]; cbn [quad_loop] in Hr; [|]); try discriminate.
  1, 2: injection Hr as <-; rewrite app_nil_r in Hp; destruct Ht as (H1 & H2 & H3 & H4 & H5); exists l; repeat split; trivial;
    [now apply (Permutation_Forall (Permutation_sym Hp))|rewrite H1; symmetry; now apply sum_value_perm|rewrite H3; symmetry; now apply sum_unc_perm|
     rewrite H4; symmetry; now apply existsb_perm].
  pose proof (fold_inv tol (split3 f i) t rest acc Ht) as F. destruct (fold_left (process tol) (split3 f i) (t, rest)) as [t' s'].
  destruct F as (acc' & Ht' & Hp' & _).
  assert (Hin : In i l) by (apply (Permutation_in i (Permutation_sym Hp)); apply in_or_app; right; now left).
  destruct (in_split i l Hin) as (l1 & l2 & ->).
  apply chain_app in Hc. destruct Hc as (m & Hc1 & Hc2). cbn in Hc2. destruct Hc2 as (Em & Hlt & Hc2).
  apply Forall_app in Hg. destruct Hg as (Hg1 & Hg2). inversion Hg2 as [|? ? Gi Hg2']; subst.
  destruct (split_chain i Gi Hlt) as [Sc Sg].
  apply (IH t' s' acc' (l1 ++ split3 f i ++ l2) r Ht').
  - apply chain_app. exists (ia i). split; [exact Hc1|]. apply chain_app. exists (ib i). auto.
  - apply Forall_app. split; [exact Hg1|]. apply Forall_app. auto.
  - rewrite <- Hp'. assert (Q : Permutation (l1 ++ l2) (acc ++ rest)).
    { apply Permutation_cons_inv with (a := i). rewrite Permutation_middle, Hp. symmetry. apply Permutation_middle. }
    rewrite <- Q. rewrite !app_assoc. apply Permutation_app_tail. apply Permutation_app_comm.
  - exact Hr.
Qed.

(** *** Counting splittings *)
Lemma beta_third : 1 / 3 < beta.
Proof.
  pose proof beta_sq. pose proof beta_range. destruct (Rlt_dec (1 / 3) beta); [assumption|]. exfalso.
  assert (beta * beta <= 1 / 3 * (1 / 3)) by (apply Rmult_le_compat; lra). lra.
Qed.
Fixpoint weight (L : nat) (ns : list nat) : nat := match ns with [] => 0%nat | n :: ns' => (4 ^ (L - n) + weight L ns')%nat end.
Lemma weight_app L a b : weight L (a ++ b) = (weight L a + weight L b)%nat.
Proof. induction a as [|n a IH]; cbn; [reflexivity|]. rewrite IH. lia. Qed.
Lemma weight_repeat L n k : weight L (repeat n k) = (k * 4 ^ (L - n))%nat.
Proof. induction k as [|k IH]; cbn; [reflexivity|]. rewrite IH. lia. Qed.
Lemma level_exists c W : 0 < c -> exists L, W * beta ^ L <= 32 * epsilon * c.
Proof.
  intros Hc. pose proof beta_range as [B1 B2]. assert (He : 0 < epsilon) by (unfold epsilon; apply Rinv_0_lt_compat, pow_lt; lra).
  set (W' := Rabs W + 1). assert (HW' : 0 < W') by (unfold W'; pose proof (Rabs_pos W); lra).
  assert (Hd : 0 < 32 * epsilon * c / W') by (apply Rdiv_lt_0_compat; [|exact HW']; apply Rmult_lt_0_compat; lra).
  destruct (pow_lt_1_zero beta ltac:(rewrite Rabs_right; lra) _ Hd) as (L & HL). exists L. specialize (HL L (le_n _)).
  assert (Hp : 0 < beta ^ L) by (apply pow_lt; lra). rewrite Rabs_right in HL by lra.
  assert (W * beta ^ L <= W' * beta ^ L) by (apply Rmult_le_compat_r; [lra|]; unfold W'; pose proof (Rle_abs W); lra).
  assert (W' * beta ^ L < W' * (32 * epsilon * c / W')) by (apply Rmult_lt_compat_l; assumption).
  replace (W' * (32 * epsilon * c / W')) with (32 * epsilon * c) in * by (field; lra). lra.
Qed.

(** *** The whole function *)
Definition given (opt : options) (a b : R) : Prop := (ofa opt = None \/ ofa opt = Some (f a)) /\ (ofb opt = None \/ ofb opt = Some (f b)).
Definition no_options : options := Options None None.
Lemma given_none a b : given no_options a b.
Proof. split; now left. Qed.
Lemma integrate_given fuel a b tol opt : given opt (Rmin a b) (Rmax a b) -> integrate f fuel a b tol opt = integrate f fuel a b tol no_options.
Proof.
  intros [Ha Hb]. unfold integrate. destruct (Rlt_dec tol epsilon); [reflexivity|].
  destruct (Rlt_dec b a) as [Hlt|Hge].
  - rewrite Rmin_right in Ha by lra. rewrite Rmax_left in Hb by lra. cbn [no_options ofa ofb].
    replace (match ofa opt with Some v => v | None => f b end) with (f b) by (destruct Ha as [->| ->]; reflexivity).
    replace (match ofb opt with Some v => v | None => f a end) with (f a) by (destruct Hb as [->| ->]; reflexivity). reflexivity.
  - rewrite Rmin_left in Ha by lra. rewrite Rmax_right in Hb by lra. cbn [no_options ofa ofb].
    replace (match ofa opt with Some v => v | None => f a end) with (f a) by (destruct Ha as [->| ->]; reflexivity).
    replace (match ofb opt with Some v => v | None => f b end) with (f b) by (destruct Hb as [->| ->]; reflexivity). reflexivity.
Qed.
Definition neg_result (r : result) : result := Result (- integral r) (uncertainty r) (out_of_tolerance r) (final_fa r) (final_fb r).
Lemma narrow a fa fb : can_subdivide (evaluate f a a fa fb) = false.
Proof.
  unfold can_subdivide. cbn. destruct (Rlt_dec _ _) as [H|]; [exfalso|reflexivity].
  assert (He : 0 < epsilon) by (unfold epsilon; apply Rinv_0_lt_compat, pow_lt; lra).
  assert (0 <= 32 * epsilon * Rmax (Rabs a) (Rabs a)) by (apply Rmult_le_pos; [lra|]; apply Rle_trans with (Rabs a); [apply Rabs_pos|apply Rmax_l]). lra.
Qed.
Lemma integrate_swap fuel a b tol opt : integrate f fuel b a tol opt =
  match integrate f fuel a b tol opt with Some (Ok r) => Some (Ok (neg_result r)) | o => o end.
Proof.
  destruct (Rtotal_order a b) as [H|[->|H]].
  - unfold integrate. destruct (Rlt_dec tol epsilon); [reflexivity|]. destruct (Rlt_dec a b); [|lra]. destruct (Rlt_dec b a); [lra|]. cbv zeta.
    destruct (negb _); [reflexivity|]. destruct (Rle_dec _ _); [reflexivity|]. destruct (quad_loop _ _ _ _ _); reflexivity.
  - unfold integrate. destruct (Rlt_dec tol epsilon); [reflexivity|]. destruct (Rlt_dec b b); [lra|]. cbv zeta. rewrite narrow. reflexivity.
  - unfold integrate. destruct (Rlt_dec tol epsilon); [reflexivity|]. destruct (Rlt_dec a b); [lra|]. destruct (Rlt_dec b a); [|lra]. cbv zeta.
    destruct (negb _); [reflexivity|]. destruct (Rle_dec _ _); [unfold neg_result; cbn [integral uncertainty out_of_tolerance final_fa final_fb]; now rewrite Ropp_involutive|]. destruct (quad_loop _ _ _ _ _); [unfold neg_result; cbn [integral uncertainty out_of_tolerance final_fa final_fb]; now rewrite Ropp_involutive|reflexivity].
Qed.
Lemma tot_nil tol : tot_inv tol (Totals 0 0 0 false) [].
Proof. unfold tot_inv. cbn. auto. Qed.
Lemma integrate_result fuel a b tol r : a < b -> integrate f fuel a b tol no_options = Some (Ok r) ->
  integral r = kronrod13 f a b (f a) (f b) \/
  exists l T, T > 0 /\ chain a l b /\ Forall genuine l /\ Forall (accepted_ok T) l /\ integral r = sum_value l /\
     (out_of_tolerance r = existsb (fun i => negb (can_subdivide i)) l).
Proof.
  intros Hab. unfold integrate. destruct (Rlt_dec tol epsilon) as [|Htol]; [discriminate|]. destruct (Rlt_dec b a); [lra|]. cbv zeta. cbn [no_options ofa ofb].
  destruct (negb _) eqn:Ec; [discriminate|]. set (is1 := kronrod13 f a b (f a) (f b)).
  set (R0 := if Req_EM_T _ 0 then 1 else _). set (Rin := if Rlt_dec 0 R0 then _ else _).
  set (T := _ * Rabs _). destruct (Rle_dec _ _) as [|Hb]; [intros H; injection H as <-; now left|].
  destruct (quad_loop _ _ _ _ _) as [t|] eqn:El; [|discriminate]. intros H. injection H as <-. right.
  pose proof (loop_partition T a b fuel (Totals 0 0 0 false) [evaluate f a b (f a) (f b)] [] [evaluate f a b (f a) (f b)] t (tot_nil T)) as LP.
  destruct LP as (l' & H1 & H2 & H3 & H4 & H5 & H6).
  - cbn. repeat split; trivial.
  - repeat constructor.
  - apply Permutation_refl.
  - exact El.
  - exists l', T. split; [|repeat split; trivial].
    assert (He : 0 < epsilon) by (unfold epsilon; apply Rinv_0_lt_compat, pow_lt; lra).
    unfold T. apply Rmult_lt_0_compat.
    + unfold Rin. destruct (Rlt_dec 0 R0); [destruct (Rlt_dec R0 1)|]; try lra. apply Rdiv_lt_0_compat; lra.
    + apply Rabs_pos_lt. destruct (Req_EM_T is1 0); lra.
Qed.
End Loop.

(** *** The 13-point rule on polynomials *)
Definition K13 (g : R -> R) : R :=
  158271919734802 / 10 ^ 16 * (g 1 + g (-1)) + 942738402188500 / 10 ^ 16 * (g x1 + g (- x1)) + 1550719873365850 / 10 ^ 16 * (g alpha + g (- alpha)) +
  1888215739601820 / 10 ^ 16 * (g x2 + g (- x2)) + 1997734052268590 / 10 ^ 16 * (g beta + g (- beta)) + 224926465333340 / 10 ^ 15 * (g x3 + g (- x3)) +
  242611071901408 / 10 ^ 15 * g 0.
Lemma kronrod_local f a b : kronrod13 f a b (f a) (f b) = (b - a) / 2 * K13 (fun s => f ((a + b) / 2 + s * ((b - a) / 2))).
Proof.
  unfold kronrod13, K13. cbv zeta. cbn [yv]. rewrite !pt_eq. unfold abscissa. cbn [nth].
  replace ((a + b) / 2 + 1 * ((b - a) / 2)) with b by field. replace ((a + b) / 2 + -1 * ((b - a) / 2)) with a by field. ring.
Qed.
Definition pair_pow (s : R) (k : nat) : R := s ^ k + (- s) ^ k.
Lemma pair_odd s k : pair_pow s (S (2 * k)) = 0.
Proof. unfold pair_pow. rewrite !pow_add || idtac. cbn [pow]. rewrite !pow_mult. replace ((- s) ^ 2) with (s ^ 2) by ring. ring. Qed.
Lemma pair_even s k : pair_pow s (2 * k) = 2 * (s * s) ^ k.
Proof. unfold pair_pow. rewrite !pow_mult. replace ((- s) ^ 2) with (s * s) by ring. replace (s ^ 2) with (s * s) by ring. ring. Qed.
Definition err13 : R := / 10 ^ 15.
Lemma K13_even k : (k <= 9)%nat -> Rabs (K13 (fun s => s ^ (2 * k)) - 2 / INR (2 * k + 1)) <= err13.
Proof.
  intros Hk. unfold K13.
  change (1 ^ (2 * k) + (-1) ^ (2 * k)) with (pair_pow 1 (2 * k)). change (x1 ^ (2 * k) + (- x1) ^ (2 * k)) with (pair_pow x1 (2 * k)).
  change (alpha ^ (2 * k) + (- alpha) ^ (2 * k)) with (pair_pow alpha (2 * k)). change (x2 ^ (2 * k) + (- x2) ^ (2 * k)) with (pair_pow x2 (2 * k)).
  change (beta ^ (2 * k) + (- beta) ^ (2 * k)) with (pair_pow beta (2 * k)). change (x3 ^ (2 * k) + (- x3) ^ (2 * k)) with (pair_pow x3 (2 * k)).
  rewrite !pair_even, alpha_sq, beta_sq. unfold err13, x1, x2, x3.
  do 10 (destruct k as [|k]; [cbn [INR pow Nat.mul Nat.add]; apply Rabs_le; lra|]). lia.
Qed.
Lemma K13_mono k : (k <= 19)%nat -> Rabs (K13 (fun s => s ^ k) - (1 - (-1) ^ S k) / INR (S k)) <= err13.
Proof.
  intros Hk. destruct (Nat.Even_or_Odd k) as [[j ->]|[j ->]].
  - replace (1 - (-1) ^ S (2 * j)) with 2 by (cbn [pow]; rewrite pow_mult; replace ((-1) ^ 2) with 1 by ring; rewrite pow1; ring).
    replace (S (2 * j)) with (2 * j + 1)%nat by lia. apply K13_even. lia.
  - replace (2 * j + 1)%nat with (S (2 * j)) by lia. unfold K13.
    repeat match goal with |- context[?x ^ S (2 * j) + ?y ^ S (2 * j)] => change (x ^ S (2 * j) + y ^ S (2 * j)) with (pair_pow x (S (2 * j))) end.
    rewrite !pair_odd. replace (S (S (2 * j))) with (2 * S j)%nat by lia. rewrite pow_mult. replace ((-1) ^ 2) with 1 by ring. rewrite pow1.
    cbn [pow]. match goal with |- Rabs ?x <= _ => replace x with 0 by (field; apply not_0_INR; lia) end.
    rewrite Rabs_R0. unfold err13. left. apply Rinv_0_lt_compat, pow_lt. lra.
Qed.
Definition norm1 (c : list R) : R := fold_right (fun x s => Rabs x + s) 0 c.
Lemma K13_poly c : forall k, (k + length c <= 20)%nat ->
  Rabs (K13 (fun s => s ^ k * peval c s) - (prim k c 1 - prim k c (-1))) <= err13 * norm1 c.
Proof.
  induction c as [|x c IH]; intros k Hk.
  - cbn. unfold K13. match goal with |- Rabs ?x <= _ => replace x with 0 by ring end. rewrite Rabs_R0. lra.
  - cbn [length] in Hk. specialize (IH (S k) ltac:(lia)). pose proof (K13_mono k ltac:(lia)) as Hm.
    assert (E : K13 (fun s => s ^ k * peval (x :: c) s) = x * K13 (fun s => s ^ k) + K13 (fun s => s ^ S k * peval c s)) by (unfold K13; cbn [peval pow]; ring).
    rewrite E. cbn [prim norm1 fold_right]. fold (norm1 c).
    match goal with |- Rabs ?z <= _ => replace z with (x * (K13 (fun s => s ^ k) - (1 - (-1) ^ S k) / INR (S k)) + (K13 (fun s => s ^ S k * peval c s) - (prim (S k) c 1 - prim (S k) c (-1)))) end.
    + eapply Rle_trans; [apply Rabs_triang|]. rewrite Rabs_mult. pose proof (Rabs_pos x). nra.
    + rewrite pow1. field. apply not_0_INR. lia.
Qed.
