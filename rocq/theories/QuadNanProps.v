(** C19, C20: an integrand which is not a number. *)
From Coq Require Import List Arith Reals Lra Lia.
From Verif Require Import Err QuadModel QuadProofs QuadNanModel.
Import ListNotations.
Local Open Scope R_scope.

(** ** With numbers it is the quadrature of [QuadModel] *)
Definition up (i : interval) : nint :=
  NInt (ia i) (ib i) (Some (ifa i)) (Some (ifb i)) (spa i) (spb i) (Some (fspa i)) (Some (fspb i)) (Some (QuadModel.value i)) (Some (est2 i)).
Definition upt (t : totals) : ntotals := NTotals (Some (total t)) (Some (comp t)) (Some (unc t)) (oot t).
Section Numbers.
Variable f : R -> R.
Let g : R -> value := fun x => Some (f x).
Lemma up_evaluate a b fa fb : nevaluate g a b (Some fa) (Some fb) = up (evaluate f a b fa fb).
Proof. reflexivity. Qed.
Lemma up_can i : ncan (up i) = can_subdivide i.
Proof. reflexivity. Qed.
Lemma up_process tol t stack i : nprocess (Some tol) (upt t, map up stack) (up i) = let '(t', s') := process tol (t, stack) i in (upt t', map up s').
Proof. unfold nprocess, process. rewrite up_can. change (vle0 (nbadness (up i) (Some tol))) with (if Rle_dec (badness i tol) 0 then true else false). now destruct (orb _ _). Qed.
Lemma up_fold tol l : forall t stack, fold_left (nprocess (Some tol)) (map up l) (upt t, map up stack) = let '(t', s') := fold_left (process tol) l (t, stack) in (upt t', map up s').
Proof.
  induction l as [|i l IH]; intros t stack; cbn [fold_left map]; [reflexivity|].
  rewrite up_process. destruct (process tol (t, stack) i) as [t' s']. apply IH.
Qed.
Lemma up_loop tol : forall fuel t stack, nloop g fuel (Some tol) (upt t) (map up stack) = option_map upt (quad_loop f fuel tol t stack).
Proof.
  induction fuel as [|fuel IH]; intros t [|i rest]; try reflexivity. cbn [map nloop quad_loop].
  change (nsplit3 g (up i)) with (map up (split3 f i)). rewrite up_fold. destruct (fold_left (process tol) (split3 f i) (t, rest)) as [t' s']. apply IH.
Qed.
End Numbers.
Theorem c19_numbers : forall f fuel a b tol opt,
  nintegrate (fun x => Some (f x)) fuel a b tol (ofa opt) (ofb opt) =
  match integrate f fuel a b tol opt with
  | None => None | Some (Ok r) => Some (Ok (Some (integral r))) | Some (Throw e) => Some (Throw e) | Some UB => Some UB
  end.
Proof.
  intros f fuel a0 b0 tol0 opt. unfold nintegrate, integrate. destruct (Rlt_dec tol0 epsilon); [reflexivity|].
  set (reverse := if Rlt_dec b0 a0 then true else false). destruct (if reverse then (b0, a0) else (a0, b0)) as [a b].
  assert (Ea : match ofa opt with Some v => Some v | None => Some (f a) end = Some (match ofa opt with Some v => v | None => f a end)) by now destruct (ofa opt).
  assert (Eb : match ofb opt with Some v => Some v | None => Some (f b) end = Some (match ofb opt with Some v => v | None => f b end)) by now destruct (ofb opt).
  rewrite Ea, Eb. set (fa := match ofa opt with Some v => v | None => f a end). set (fb := match ofb opt with Some v => v | None => f b end).
  rewrite up_evaluate, up_can. destruct (negb (can_subdivide (evaluate f a b fa fb))); [reflexivity|].
  change (nkronrod13 (fun x => Some (f x)) a b (Some fa) (Some fb)) with (Some (kronrod13 f a b fa fb)).
  set (i := evaluate f a b fa fb). set (is1 := kronrod13 f a b fa fb). cbv zeta.
  cbn [up nvalue nest2 vsub lift2 vabs option_map vzero].
  set (e1 := Rabs (QuadModel.value i - is1)). set (e2 := Rabs (est2 i - is1)).
  assert (Eq : (if (if Req_EM_T e2 0 then true else false) then Some 1 else Some (e1 / e2)) = Some (if Req_EM_T e2 0 then 1 else e1 / e2)) by now destruct (Req_EM_T e2 0).
  rewrite Eq. set (q := if Req_EM_T e2 0 then 1 else e1 / e2).
  assert (Es : (if (if Req_EM_T is1 0 then true else false) then Some (b - a) else Some is1) = Some (if Req_EM_T is1 0 then b - a else is1)) by now destruct (Req_EM_T is1 0).
  rewrite Es. set (is := if Req_EM_T is1 0 then b - a else is1). cbn [option_map vscale].
  assert (Et : (if Rlt_dec 0 q then if Rlt_dec q 1 then tol0 / q else tol0 else tol0) =
               (if (if Rlt_dec 0 q then if Rlt_dec q 1 then true else false else false) then tol0 / q else tol0)) by (destruct (Rlt_dec 0 q); [destruct (Rlt_dec q 1)|]; reflexivity).
  rewrite Et. set (tol := (if (if Rlt_dec 0 q then if Rlt_dec q 1 then true else false else false) then tol0 / q else tol0) * Rabs is).
  match goal with |- context [vscale ?k (vabs (Some is))] => change (vscale k (vabs (Some is))) with (Some tol) end.
  change (nbadness (up i) (Some tol)) with (Some (badness i tol)). cbn [vle0].
  destruct (Rle_dec (badness i tol) 0) as [L|L].
  - cbn [integral]. now destruct reverse.
  - pose proof (up_loop f tol fuel (Totals 0 0 0 false) [i]) as E. cbn [map] in E. change (upt (Totals 0 0 0 false)) with (NTotals (Some 0) (Some 0) (Some 0) false) in E.
    rewrite E. destruct (quad_loop f fuel tol (Totals 0 0 0 false) [i]) as [t|]; [|reflexivity]. cbn [option_map upt ntotal integral]. now destruct reverse.
Qed.
Print Assumptions c19_numbers.

(** ** Without numbers it is split down to the width of rounding *)
Section NotANumber.
Variable f : R -> value.
Variables lo hi : R.
Hypothesis bad : forall x, lo <= x <= hi -> f x = None.
Definition widest : R := 32 * epsilon * Rmax (Rabs lo) (Rabs hi).
(** An interval on the stack: between the ends, its estimates not numbers. *)
Definition hopeless (i : nint) : Prop :=
  lo <= na i /\ na i < nb i /\ nb i <= hi /\ nsa i = pt (na i) (nb i) 4 /\ nsb i = pt (na i) (nb i) 8 /\ nvalue i = None.
Lemma abs_between x : lo <= x <= hi -> Rabs x <= Rmax (Rabs lo) (Rabs hi).
Proof. intros H. unfold Rmax, Rabs. repeat destruct (Rcase_abs _); destruct (Rle_dec _ _); lra. Qed.
Lemma epsilon_pos : 0 < epsilon.
Proof. unfold epsilon. apply Rinv_0_lt_compat. apply pow_lt. lra. Qed.
Lemma narrow_width i : lo <= na i -> na i <= nb i -> nb i <= hi -> ncan i = false -> nb i - na i <= widest.
Proof.
  intros H1 H2 H3 H. unfold ncan in H. destruct (Rlt_dec _ _) as [|N]; [discriminate|]. unfold widest. pose proof epsilon_pos.
  assert (Rmax (Rabs (na i)) (Rabs (nb i)) <= Rmax (Rabs lo) (Rabs hi)) by (apply Rmax_lub; apply abs_between; lra).
  assert (32 * epsilon * Rmax (Rabs (na i)) (Rabs (nb i)) <= 32 * epsilon * Rmax (Rabs lo) (Rabs hi)) by (apply Rmult_le_compat_l; lra). lra.
Qed.
Lemma hopeless_evaluate a b fa fb : lo <= a -> a < b -> b <= hi -> hopeless (nevaluate f a b fa fb).
Proof.
  intros H1 H2 H3. unfold hopeless. cbn [nevaluate na nb nsa nsb nvalue]. repeat (split; [assumption || reflexivity|]).
  destruct (pt_order a b H2) as (P1 & P2 & P3). cbn [nyv]. rewrite (bad (pt a b 4)) by lra. cbn [vadd lift2].
  unfold vadd. destruct (lift2 Rplus (vscale 77 (lift2 Rplus fa fb)) (vscale 432 (lift2 Rplus (f (pt a b 2)) (f (pt a b 10))))); reflexivity.
Qed.
Definition widths (l : list nint) : R := fold_right (fun i s => (nb i - na i) + s) 0 l.
Lemma process_hopeless tol t stack i : hopeless i -> Forall hopeless stack -> 
  let '(t', stack') := nprocess tol (t, stack) i in
  Forall hopeless stack' /\ widths stack + (nb i - na i) <= widths stack' + (INR (length stack) + 1 - INR (length stack')) * widest /\ (length stack' <= S (length stack))%nat.
Proof.
  intros Hi Hs. unfold nprocess. destruct Hi as (H1 & H2 & H3 & H4 & H5 & H6) eqn:E. unfold nbadness. rewrite H6. cbn [vsub lift2 vabs option_map vle0 orb].
  destruct (ncan i) eqn:C; cbn [negb].
  - split; [now constructor|]. cbn [length widths fold_right]. fold (widths stack). rewrite S_INR. split; [nra|lia].
  - split; [exact Hs|]. pose proof (narrow_width i H1 ltac:(lra) H3 C). split; [|lia]. replace (INR (length stack) + 1 - INR (length stack)) with 1 by lra. lra.
Qed.
Lemma fold_hopeless tol l : forall t stack, Forall hopeless l -> Forall hopeless stack ->
  let '(t', stack') := fold_left (nprocess tol) l (t, stack) in
  Forall hopeless stack' /\ widths stack + widths l <= widths stack' + (INR (length stack) + INR (length l) - INR (length stack')) * widest.
Proof.
  induction l as [|i l IH]; intros t stack Hl Hs; cbn [fold_left]; [split; [exact Hs|cbn [widths fold_right length]; change (INR 0) with 0; nra]|].
  inversion Hl as [|? ? Hi Hl']; subst. pose proof (process_hopeless tol t stack i Hi Hs) as P. destruct (nprocess tol (t, stack) i) as [t1 s1]. destruct P as (P1 & P2 & _).
  specialize (IH t1 s1 Hl' P1). destruct (fold_left (nprocess tol) l (t1, s1)) as [t2 s2]. destruct IH as [I1 I2]. split; [exact I1|].
  cbn [widths fold_right length]. fold (widths l). rewrite (S_INR (length l)). nra.
Qed.
Lemma split_hopeless i : hopeless i -> Forall hopeless (nsplit3 f i) /\ widths (nsplit3 f i) = nb i - na i.
Proof.
  intros (H1 & H2 & H3 & H4 & H5 & _). destruct (pt_order (na i) (nb i) H2) as (P1 & P2 & P3). rewrite <- H4, <- H5 in *. unfold nsplit3. split.
  - repeat (apply Forall_cons; [apply hopeless_evaluate; lra|]). apply Forall_nil.
  - unfold widths. cbn [fold_right nevaluate na nb]. lra.
Qed.
Lemma loop_hopeless tol : forall fuel t stack r, Forall hopeless stack -> nloop f fuel tol t stack = Some r ->
  widths stack <= (2 * INR fuel + INR (length stack)) * widest.
Proof.
  assert (W : 0 <= widest).
  { unfold widest. pose proof epsilon_pos. pose proof (Rabs_pos lo). pose proof (Rmax_l (Rabs lo) (Rabs hi)). apply Rmult_le_pos; lra. }
  induction fuel as [|fuel IH]; intros t [|i rest] r Hs H; cbn [nloop] in H.
  - cbn. lra.
  - discriminate.
  - cbn [widths fold_right length]. pose proof (pos_INR (S fuel)). change (INR 0) with 0. nra.
  - inversion Hs as [|? ? Hi Hr]; subst. destruct (split_hopeless i Hi) as [S1 S2].
    pose proof (fold_hopeless tol (nsplit3 f i) t rest S1 Hr) as F. destruct (fold_left (nprocess tol) (nsplit3 f i) (t, rest)) as [t' s']. destruct F as [F1 F2].
    specialize (IH t' s' r F1 H). rewrite S2 in F2. change (length (nsplit3 f i)) with 3%nat in F2. cbn [widths fold_right length]. fold (widths rest).
    rewrite !S_INR in *. change (INR 0) with 0 in *. nra.
Qed.
End NotANumber.

(** An integrand which is not a number on the interval is not reported: if the integration ends at all, it took at least as many turns
    as it takes to cut the interval down to pieces of the width of rounding. *)
Theorem c19_nan_refuted : forall f fuel a b tol r, a < b -> (forall x, a <= x <= b -> f x = None) -> nintegrate f fuel a b tol None None = Some (Ok r) ->
  b - a <= (2 * INR fuel + 1) * (32 * / 2 ^ 52 * Rmax (Rabs a) (Rabs b)).
Proof.
  intros f fuel a b tol r Hab Hb H. unfold nintegrate in H. destruct (Rlt_dec tol epsilon); [discriminate|]. destruct (Rlt_dec b a); [lra|].
  cbv zeta in H. rewrite (Hb a), (Hb b) in H by lra.
  pose proof (hopeless_evaluate f a b Hb a b None None ltac:(lra) Hab ltac:(lra)) as Hh. set (i := nevaluate f a b None None) in *.
  destruct (ncan i); cbn [negb] in H; [|discriminate]. assert (E : nvalue i = None) by apply Hh. unfold nbadness in H at 1. rewrite E in H. cbn [vsub lift2 vabs option_map vle0] in H.
  match type of H with match nloop _ _ ?tl ?t0 _ with _ => _ end = _ => destruct (nloop f fuel tl t0 [i]) as [t|] eqn:L; [|discriminate];
    pose proof (loop_hopeless f a b Hb tl fuel t0 [i] t ltac:(now constructor) L) as W end.
  cbn [widths fold_right length] in W. unfold widest, epsilon in W. change (INR 1) with 1 in W. unfold i in W. cbn [nevaluate na nb] in W. lra.
Qed.
Print Assumptions c19_nan_refuted.
(** ** With a tolerance which is not a number *)
Section Lost.
Variable f : R -> value.
Variables lo hi : R.
Definition lost (i : nint) : Prop := lo <= na i /\ na i < nb i /\ nb i <= hi /\ nsa i = pt (na i) (nb i) 4 /\ nsb i = pt (na i) (nb i) 8.
Lemma badness_none i : nbadness i None = None.
Proof. unfold nbadness, vsub. destruct (vabs _); reflexivity. Qed.
Lemma lost_evaluate a b fa fb : lo <= a -> a < b -> b <= hi -> lost (nevaluate f a b fa fb).
Proof. intros H1 H2 H3. unfold lost. cbn [nevaluate na nb nsa nsb]. repeat split; assumption. Qed.
Lemma process_lost t stack i : lost i -> Forall lost stack -> 
  let '(t', stack') := nprocess None (t, stack) i in
  Forall lost stack' /\ widths stack + (nb i - na i) <= widths stack' + (INR (length stack) + 1 - INR (length stack')) * (widest lo hi) /\ (length stack' <= S (length stack))%nat.
Proof.
  intros Hi Hs. unfold nprocess. destruct Hi as (H1 & H2 & H3 & H4 & H5). rewrite badness_none. cbn [vle0 orb].
  destruct (ncan i) eqn:C; cbn [negb].
  - split; [now constructor|]. cbn [length widths fold_right]. fold (widths stack). rewrite S_INR. split; [nra|lia].
  - split; [exact Hs|]. pose proof (narrow_width lo hi i H1 ltac:(lra) H3 C). split; [|lia]. replace (INR (length stack) + 1 - INR (length stack)) with 1 by lra. lra.
Qed.
Lemma fold_lost l : forall t stack, Forall lost l -> Forall lost stack ->
  let '(t', stack') := fold_left (nprocess None) l (t, stack) in
  Forall lost stack' /\ widths stack + widths l <= widths stack' + (INR (length stack) + INR (length l) - INR (length stack')) * (widest lo hi).
Proof.
  induction l as [|i l IH]; intros t stack Hl Hs; cbn [fold_left]; [split; [exact Hs|cbn [widths fold_right length]; change (INR 0) with 0; nra]|].
  inversion Hl as [|? ? Hi Hl']; subst. pose proof (process_lost t stack i Hi Hs) as P. destruct (nprocess None (t, stack) i) as [t1 s1]. destruct P as (P1 & P2 & _).
  specialize (IH t1 s1 Hl' P1). destruct (fold_left (nprocess None) l (t1, s1)) as [t2 s2]. destruct IH as [I1 I2]. split; [exact I1|].
  cbn [widths fold_right length]. fold (widths l). rewrite (S_INR (length l)). nra.
Qed.
Lemma split_lost i : lost i -> Forall lost (nsplit3 f i) /\ widths (nsplit3 f i) = nb i - na i.
Proof.
  intros (H1 & H2 & H3 & H4 & H5). destruct (pt_order (na i) (nb i) H2) as (P1 & P2 & P3). rewrite <- H4, <- H5 in *. unfold nsplit3. split.
  - repeat (apply Forall_cons; [apply lost_evaluate; lra|]). apply Forall_nil.
  - unfold widths. cbn [fold_right nevaluate na nb]. lra.
Qed.
Lemma loop_lost : forall fuel t stack r, Forall lost stack -> nloop f fuel None t stack = Some r ->
  widths stack <= (2 * INR fuel + INR (length stack)) * (widest lo hi).
Proof.
  assert (W : 0 <= (widest lo hi)).
  { unfold widest. pose proof epsilon_pos. pose proof (Rabs_pos lo). pose proof (Rmax_l (Rabs lo) (Rabs hi)). apply Rmult_le_pos; lra. }
  induction fuel as [|fuel IH]; intros t [|i rest] r Hs H; cbn [nloop] in H.
  - cbn. lra.
  - discriminate.
  - cbn [widths fold_right length]. pose proof (pos_INR (S fuel)). change (INR 0) with 0. nra.
  - inversion Hs as [|? ? Hi Hr]; subst. destruct (split_lost i Hi) as [S1 S2].
    pose proof (fold_lost (nsplit3 f i) t rest S1 Hr) as F. destruct (fold_left (nprocess None) (nsplit3 f i) (t, rest)) as [t' s']. destruct F as [F1 F2].
    specialize (IH t' s' r F1 H). rewrite S2 in F2. change (length (nsplit3 f i)) with 3%nat in F2. cbn [widths fold_right length]. fold (widths rest).
    rewrite !S_INR in *. change (INR 0) with 0 in *. nra.
Qed.
End Lost.
Lemma none_r op v : lift2 op v None = None.
Proof. now destruct v. Qed.

(** One place where the integrand is not a number is enough, if it is one of
    the eleven looked at first: the tolerance is then not a number, and the
    whole interval is cut down to the width of rounding. *)
Theorem c19_one_nan_refuted : forall f fuel a b tol r k, a < b -> (0 < k < 12)%nat -> f (pt a b k) = None -> nintegrate f fuel a b tol None None = Some (Ok r) ->
  b - a <= (2 * INR fuel + 1) * (32 * / 2 ^ 52 * Rmax (Rabs a) (Rabs b)).
Proof.
  intros f fuel a b tol r k Hab Hk Hb H. unfold nintegrate in H. destruct (Rlt_dec tol epsilon); [discriminate|]. destruct (Rlt_dec b a); [lra|].
  cbv zeta in H. set (i := nevaluate f a b (f a) (f b)) in *. destruct (ncan i); cbn [negb] in H; [|discriminate].
  assert (K : nkronrod13 f a b (f a) (f b) = None).
  { unfold nkronrod13. do 12 (destruct k as [|k]; [try lia; cbv zeta; cbn [nyv]; unfold vadd, vscale; rewrite Hb; repeat (cbn [lift2 option_map]; rewrite ?none_r); reflexivity|]). lia. }
  rewrite K in H. cbn [vzero vabs option_map vscale] in H.
  assert (B : forall q : R, vscale q (vabs None) = None) by reflexivity. cbn [vabs option_map] in B.
  rewrite badness_none in H. cbn [vle0] in H.
  destruct (nloop f fuel None _ [i]) as [t|] eqn:L; [|discriminate].
  assert (Hi : lost a b i) by (apply lost_evaluate; lra).
  pose proof (loop_lost f a b fuel _ [i] t ltac:(now constructor) L) as W.
  cbn [widths fold_right length] in W. unfold widest, epsilon in W. change (INR 1) with 1 in W. unfold i in W. cbn [nevaluate na nb] in W. lra.
Qed.
(** not a number at the middle only, over [1,2] *)
Example c19_one_nan_case : forall fuel tol r, nintegrate (fun x => if Req_EM_T x (pt 1 2 6) then None else Some x) fuel 1 2 tol None None = Some (Ok r) -> 10 ^ 13 <= INR fuel.
Proof.
  intros fuel tol r H.
  assert (L : 2 - 1 <= (2 * INR fuel + 1) * (32 * / 2 ^ 52 * Rmax (Rabs 1) (Rabs 2))).
  { refine (c19_one_nan_refuted _ fuel 1 2 tol r 6%nat _ _ _ H); [lra|lia|]. cbv beta. destruct (Req_EM_T _ _); congruence. }
  rewrite (Rabs_right 1), (Rabs_right 2), Rmax_right in L by lra.
  assert (E : / 2 ^ 52 * 2 ^ 52 = 1) by (apply Rinv_l, pow_nonzero; lra).
  assert (2 ^ 52 <= (2 * INR fuel + 1) * 64).
  { apply Rmult_le_reg_l with (/ 2 ^ 52); [apply Rinv_0_lt_compat, pow_lt; lra|]. lra. }
  assert (2 ^ 52 = 4503599627370496) by (cbn [pow]; lra). assert (10 ^ 13 = 10000000000000) by (cbn [pow]; lra). lra.
Qed.
Print Assumptions c19_one_nan_refuted.
(** So it is for the averages of cross sections: over [1,2] more than ten thousand milliard turns. *)
Theorem c20_nan_refuted : forall fuel tol r, nfast_int (fun _ => None) fuel 1 2 tol = Some (Ok r) -> 10 ^ 13 <= INR fuel.
Proof.
  intros fuel tol r H. unfold nfast_int in H. cbn [nagree vadd lift2 vscale option_map] in H.
  pose proof (c19_nan_refuted (fun _ => None) fuel 1 2 tol r ltac:(lra) ltac:(reflexivity) H) as L.
  rewrite (Rabs_right 1), (Rabs_right 2), Rmax_right in L by lra. 
  assert (E : / 2 ^ 52 * 2 ^ 52 = 1) by (apply Rinv_l, pow_nonzero; lra).
  assert (2 ^ 52 <= (2 * INR fuel + 1) * 64).
  { apply Rmult_le_reg_l with (/ 2 ^ 52); [apply Rinv_0_lt_compat, pow_lt; lra|]. lra. }
  assert (2 ^ 52 = 4503599627370496) by (cbn [pow]; lra). assert (10 ^ 13 = 10000000000000) by (cbn [pow]; lra). lra.
Qed.
Print Assumptions c20_nan_refuted.
(** The hypotheses are met: the interval is wide enough to be split, and the loop does not stop at once. *)
Example c19_nan_case : nintegrate (fun _ => None) 0 1 2 1 None None = None.
Proof.
  unfold nintegrate. destruct (Rlt_dec 1 epsilon) as [L|_].
  - unfold epsilon in L. assert (/ 2 ^ 52 < 1) by (rewrite <- Rinv_1; apply Rinv_lt_contravar; [|apply Rlt_pow_R1; [lra|lia]]; rewrite Rmult_1_l; apply pow_lt; lra). lra.
  - destruct (Rlt_dec 2 1); [lra|]. cbv zeta. unfold ncan. cbn [nevaluate na nb].
    destruct (Rlt_dec _ _) as [|N]; [reflexivity|exfalso; apply N]. rewrite (Rabs_right 1), (Rabs_right 2), Rmax_right by lra. unfold epsilon.
    assert (2 ^ 52 = 4503599627370496) as -> by (cbn [pow]; lra). lra.
Qed.
