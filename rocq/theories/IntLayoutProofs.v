(** Lemmas about interaction lengths, the padding and the layout of the cache. *)
From Coq Require Import Reals List ZArith Bool Arith Lia Lra.
From Verif Require Import Err TauModel XsModel XsProofs IntModel IntProofs.
Import ListNotations.

(** * Interaction lengths after the update *)

Open Scope R_scope.

Definition num_e (c : iconf) : R :=
  if Nat.eqb (length (c_dens c)) 1 then nth 0 (c_dens c) 0 * c_ye c
  else nth 0 (c_dens c) 0.

Definition len_sum (c : iconf) (sigma : nat -> R) : R :=
  rsum 0 (length (c_dens c)) (fun g => sigma g * nth g (c_dens c) 0).

Definition gr_step (c : iconf) (t : itables) : arr1 * arr3 -> arr1 * arr3 :=
  loop 0 (c_ne c)
    (fun e1 '(gr, i) =>
       let g := t_sGR t e1 * num_e c in
       ((fun e => if Nat.eqb e e1 then g else gr e), add3 i (anti_rho c) 0 e1 g)).

Lemma update_lengths_eq c t old :
  update_lengths c t old =
  let nc := fun r f e => invlen (fun g => t_sNC t g r f e) (c_dens c) (s_NC old r f e) in
  let cc := fun r f e => invlen (fun g => t_sCC t g r f e) (c_dens c) (s_CC old r f e) in
  let int0 := fun r f e => nc r f e + cc r f e in
  if glashow_on c then
    let '(gr, int1) := gr_step c t (s_GR old, int0) in MkS nc cc int1 gr
  else MkS nc cc int0 (s_GR old).
Proof. reflexivity. Qed.

Lemma gr_step_gr c t a e : (e < c_ne c)%nat ->
  fst (gr_step c t a) e = t_sGR t e * num_e c.
Proof.
  intro He. unfold gr_step.
  set (body := fun e1 '(gr, i) =>
       let g := t_sGR t e1 * num_e c in
       ((fun e => if Nat.eqb e e1 then g else gr e), add3 i (anti_rho c) 0 e1 g)
       : arr1 * arr3).
  change (fst (loop 0 (c_ne c) body a) e = t_sGR t e * num_e c).
  assert (G : forall n lo (b : arr1 * arr3), (n = c_ne c - lo)%nat ->
    ((lo <= e)%nat \/ fst b e = t_sGR t e * num_e c) ->
    fst (loop lo (c_ne c) body b) e = t_sGR t e * num_e c).
  { induction n as [|n IH]; intros lo b En H.
    - rewrite loop_nil by lia. destruct H as [H|H]; [lia|exact H].
    - rewrite loop_first by lia. apply IH; [lia|].
      destruct b as [gr i]. unfold body. cbn [fst].
      destruct (Nat.eqb_spec e lo) as [->|Hne].
      + right. reflexivity.
      + destruct H as [H|H]; [left; lia|right; exact H]. }
  apply (G (c_ne c)); [lia|left; lia].
Qed.

Lemma gr_step_int c t (a : arr1 * arr3) r f e : (e < c_ne c)%nat ->
  snd (gr_step c t a) r f e
  = snd a r f e + if Nat.eqb r (anti_rho c) && Nat.eqb f 0
                  then t_sGR t e * num_e c else 0.
Proof.
  intro He. unfold gr_step.
  rewrite (line_loop (fun a : arr1 * arr3 => snd a r f e) _
    (fun e1 => if Nat.eqb r (anti_rho c) && Nat.eqb f 0 then t_sGR t e1 * num_e c else 0)
    (c_ne c) e).
  - reflexivity.
  - exact He.
  - intros e1 [gr i]. cbn [snd]. rewrite add3_obs.
    destruct (Nat.eqb r (anti_rho c) && Nat.eqb f 0); cbn [andb]; [reflexivity|].
    destruct (Nat.eqb e e1); lra.
Qed.

Lemma s_NC_eq c t old r f e : c_dens c <> [] ->
  s_NC (update_lengths c t old) r f e = len_sum c (fun g => t_sNC t g r f e).
Proof.
  intro Hd. rewrite update_lengths_eq. cbv zeta.
  destruct (glashow_on c); [destruct (gr_step _ _ _)|]; cbn [s_NC];
    apply invlen_sum, Hd.
Qed.

Lemma s_CC_eq c t old r f e : c_dens c <> [] ->
  s_CC (update_lengths c t old) r f e = len_sum c (fun g => t_sCC t g r f e).
Proof.
  intro Hd. rewrite update_lengths_eq. cbv zeta.
  destruct (glashow_on c); [destruct (gr_step _ _ _)|]; cbn [s_CC];
    apply invlen_sum, Hd.
Qed.

Lemma s_GR_eq c t old e : glashow_on c = true -> (e < c_ne c)%nat ->
  s_GR (update_lengths c t old) e = t_sGR t e * num_e c.
Proof.
  intros Hg He. rewrite update_lengths_eq. cbv zeta. rewrite Hg.
  match goal with |- context [gr_step c t ?a] =>
    pose proof (gr_step_gr c t a e He) as H; destruct (gr_step c t a) end.
  exact H.
Qed.

Lemma s_INT_eq c t old r f e : c_dens c <> [] -> (e < c_ne c)%nat ->
  s_INT (update_lengths c t old) r f e
  = len_sum c (fun g => t_sNC t g r f e) + len_sum c (fun g => t_sCC t g r f e)
    + if glashow_on c && (Nat.eqb r (anti_rho c) && Nat.eqb f 0)
      then t_sGR t e * num_e c else 0.
Proof.
  intros Hd He. rewrite update_lengths_eq. cbv zeta.
  destruct (glashow_on c); cbn [andb].
  - match goal with |- context [gr_step c t ?a] =>
      pose proof (gr_step_int c t a r f e He) as H; destruct (gr_step c t a) end.
    cbn [s_INT snd] in H |- *. rewrite H. rewrite !invlen_sum by exact Hd. reflexivity.
  - cbn [s_INT]. rewrite !invlen_sum by exact Hd. unfold len_sum. lra.
Qed.

(** * Padding *)

Open Scope Z_scope.

Lemma round_up_div n : 0 <= n -> n <= two64 - 4 ->
  round_up_to_aligned n = 4 * ((n + 3) / 4).
Proof.
  intros H0 Hn. unfold round_up_to_aligned.
  assert (E3 : Z.land n 3 = n mod 4) by (apply (Z.land_ones n 2); lia).
  assert (EM : Z.land n (two64 - 1 - 3) = n - n mod 4).
  { replace (two64 - 1 - 3) with (Z.ldiff (Z.ones 64) (Z.ones 2)) by reflexivity.
    rewrite Z.ldiff_land. rewrite Z.land_assoc.
    rewrite Z.land_ones by lia.
    rewrite Z.mod_small by (unfold two64 in Hn; lia).
    rewrite <- Z.ldiff_land. rewrite Z.ldiff_ones_r by lia.
    rewrite Z.shiftr_div_pow2, Z.shiftl_mul_pow2 by lia.
    change (2 ^ 2) with 4. pose proof (Z.div_mod n 4). lia. }
  rewrite E3, EM.
  pose proof (Z.div_mod n 4 ltac:(lia)) as D.
  pose proof (Z.mod_pos_bound n 4 ltac:(lia)) as B.
  assert (E : n - n mod 4 + (if Z.eqb (n mod 4) 0 then 0 else 4) = 4 * ((n + 3) / 4)).
  { destruct (Z.eqb_spec (n mod 4) 0) as [e|e].
    - rewrite e in *. replace (n + 3) with (3 + (n / 4) * 4) by lia.
      rewrite Z.div_add by lia. change (3 / 4) with 0. lia.
    - replace (n + 3) with ((n mod 4 - 1) + (n / 4 + 1) * 4) by lia.
      rewrite Z.div_add by lia. rewrite (Z.div_small (n mod 4 - 1)) by lia. lia. }
  rewrite E. apply Z.mod_small.
  pose proof (Z.div_mod (n + 3) 4 ltac:(lia)). pose proof (Z.mod_pos_bound (n + 3) 4 ltac:(lia)).
  assert (T : (two64 - 4) mod 4 = 0) by reflexivity.
  pose proof (Z.div_mod (two64 - 4) 4 ltac:(lia)).
  assert ((n + 3) / 4 <= (two64 - 4 + 3) / 4) by (apply Z.div_le_mono; lia).
  assert ((two64 - 4 + 3) / 4 = (two64 - 4) / 4) by reflexivity.
  assert (0 <= (n + 3) / 4) by (apply Z.div_pos; lia).
  lia.
Qed.

(** * The cache *)

(** The distance between consecutive vectors keeps the alignment. *)
Lemma cache_stride_32 m : 2 <= m -> (8 * (m * m + cache_padding m)) mod 32 = 0.
Proof.
  intro Hm. unfold cache_padding. replace (1 <? m) with true by (symmetry; apply Z.ltb_lt; lia).
  set (v := m * m). cbv zeta.
  pose proof (Z.div_mod v 4 ltac:(lia)) as D. pose proof (Z.mod_pos_bound v 4 ltac:(lia)) as B.
  set (q := v / 4) in *. set (r := v mod 4) in *.
  assert (M2 : v mod 2 = r mod 2).
  { replace v with (r + (2 * q) * 2) by lia. apply Z.mod_add. lia. }
  assert (A : ((v - 1) * 8) mod 32 = ((r - 1) * 8) mod 32).
  { replace ((v - 1) * 8) with ((r - 1) * 8 + q * 32) by lia. apply Z.mod_add. lia. }
  assert (C : (v * 8) mod 32 = (r * 8) mod 32).
  { replace (v * 8) with (r * 8 + q * 32) by lia. apply Z.mod_add. lia. }
  rewrite M2, A, C, D.
  assert (r = 0 \/ r = 1 \/ r = 2 \/ r = 3) as [E|[E|[E|E]]] by lia; rewrite E.
  - change (Z.eqb (0 mod 2) 1) with false. cbv iota. change ((0 * 8) mod 32) with 0.
    change (Z.eqb 0 0) with true. cbv iota.
    replace (8 * (4 * q + 0 + 0)) with (q * 32) by lia. apply Z.mod_mul. lia.
  - change (Z.eqb (1 mod 2) 1) with true. cbv iota. change (((1 - 1) * 8) mod 32) with 0.
    change (Z.eqb (32 - 0) 8) with false. change (32 - 0 <? 8) with false. cbv iota.
    change ((32 - 0 - 8) / 8) with 3.
    replace (8 * (4 * q + 1 + 3)) with ((q + 1) * 32) by lia. apply Z.mod_mul. lia.
  - change (Z.eqb (2 mod 2) 1) with false. cbv iota. change ((2 * 8) mod 32) with 16.
    change (Z.eqb 16 0) with false. cbv iota. change ((32 - 16) / 8) with 2.
    replace (8 * (4 * q + 2 + 2)) with ((q + 1) * 32) by lia. apply Z.mod_mul. lia.
  - change (Z.eqb (3 mod 2) 1) with true. cbv iota. change (((3 - 1) * 8) mod 32) with 16.
    change (Z.eqb (32 - 16) 8) with false. change (32 - 16 <? 8) with false. cbv iota.
    change ((32 - 16 - 8) / 8) with 1.
    replace (8 * (4 * q + 3 + 1)) with ((q + 1) * 32) by lia. apply Z.mod_mul. lia.
Qed.

Lemma cache_padding_range m : 0 <= cache_padding m.
Proof.
  unfold cache_padding. cbv zeta.
  destruct (1 <? m); [|lia].
  pose proof (Z.mod_pos_bound ((m * m - 1) * 8) 32 ltac:(lia)).
  pose proof (Z.mod_pos_bound (m * m * 8) 32 ltac:(lia)).
  destruct (Z.eqb (m * m mod 2) 1).
  - destruct (Z.eqb _ 8); [lia|]. destruct (Z.ltb_spec (32 - ((m * m - 1) * 8) mod 32) 8).
    + apply Z.div_pos; lia.
    + apply Z.div_pos; lia.
  - destruct (Z.eqb _ 0); [lia|]. apply Z.div_pos; lia.
Qed.

Lemma square_parity m : (m * m) mod 2 = m mod 2.
Proof.
  pose proof (Z.div_mod m 2 ltac:(lia)) as D. pose proof (Z.mod_pos_bound m 2 ltac:(lia)).
  rewrite D at 1 2.
  replace ((2 * (m / 2) + m mod 2) * (2 * (m / 2) + m mod 2))
    with (m mod 2 * (m mod 2) + (2 * (m / 2) * (m / 2) + 2 * (m / 2) * (m mod 2)) * 2) by ring.
  rewrite Z.mod_add by lia.
  assert (m mod 2 = 0 \/ m mod 2 = 1) as [->| ->] by lia; reflexivity.
Qed.

(** Aligned as the vectors of [m] flavours want it: the second component for an
    odd number of components, the first for an even one. *)
Definition aligned (m ptr : Z) : Prop :=
  if Z.eqb (m mod 2) 1 then (ptr + 8) mod 32 = 0 else ptr mod 32 = 0.

Lemma not_misaligned m ptr : 2 <= m -> aligned m ptr -> cache_misaligned m ptr = false.
Proof.
  intros Hm H. unfold cache_misaligned, aligned in *.
  replace (1 <? m) with true by (symmetry; apply Z.ltb_lt; lia). cbn [andb].
  pose proof (Z.mod_pos_bound m 2 ltac:(lia)).
  destruct (Z.eqb_spec (m mod 2) 1) as [e|e].
  - rewrite e. change (Z.eqb 1 0) with false. cbn [andb orb].
    assert (ptr mod 32 = 24) as ->; [|reflexivity].
    pose proof (Z.div_mod (ptr + 8) 32 ltac:(lia)) as D. rewrite H in D.
    replace ptr with (24 + ((ptr + 8) / 32 - 1) * 32) by lia.
    rewrite Z.mod_add by lia. reflexivity.
  - rewrite H. cbn. rewrite andb_false_r. reflexivity.
Qed.

Lemma cache_start_spec m base : 2 <= m -> base mod 8 = 0 ->
  aligned m (cache_start m base) /\
  base <= cache_start m base <= base + 8 * cache_headroom m.
Proof.
  intros Hm Hb. unfold cache_start, cache_headroom, aligned.
  replace (1 <? m) with true by (symmetry; apply Z.ltb_lt; lia). cbv zeta.
  rewrite square_parity. change ((32 - 8) / 8) with 3.
  assert (W : forall x, x mod 8 = 0 ->
    x mod 32 = 0 \/ x mod 32 = 8 \/ x mod 32 = 16 \/ x mod 32 = 24).
  { intros x Hx. pose proof (Z.div_mod x 8 ltac:(lia)) as D. rewrite Hx in D.
    pose proof (Z.div_mod x 32 ltac:(lia)). pose proof (Z.mod_pos_bound x 32 ltac:(lia)).
    lia. }
  assert (G : forall x y, x mod 32 = y -> 0 <= y -> forall z, z = x + (32 - y) -> z mod 32 = 0).
  { intros x y Hx Hy z ->. pose proof (Z.div_mod x 32 ltac:(lia)) as D.
    rewrite Hx in D. replace (x + (32 - y)) with ((x / 32 + 1) * 32) by lia.
    apply Z.mod_mul. lia. }
  destruct (Z.eqb_spec (m mod 2) 1) as [e|e].
  - assert (H8 : (base + 8) mod 8 = 0).
    { replace (base + 8) with (base + 1 * 8) by lia. rewrite Z.mod_add by lia. exact Hb. }
    destruct (W _ H8) as [E|[E|[E|E]]]; rewrite E.
    + rewrite Z.eqb_refl. rewrite E. lia.
    + change (Z.eqb 8 0) with false. cbv iota. change ((32 - 8) / 8) with 3.
      split; [eapply G; [exact E|lia|lia]|lia].
    + change (Z.eqb 16 0) with false. cbv iota. change ((32 - 16) / 8) with 2.
      split; [eapply G; [exact E|lia|lia]|lia].
    + change (Z.eqb 24 0) with false. cbv iota. change ((32 - 24) / 8) with 1.
      split; [eapply G; [exact E|lia|lia]|lia].
  - destruct (W _ Hb) as [E|[E|[E|E]]]; rewrite E.
    + rewrite Z.eqb_refl. rewrite E. lia.
    + change (Z.eqb 8 0) with false. cbv iota. change ((32 - 8) / 8) with 3.
      split; [eapply G; [exact E|lia|lia]|lia].
    + change (Z.eqb 16 0) with false. cbv iota. change ((32 - 16) / 8) with 2.
      split; [eapply G; [exact E|lia|lia]|lia].
    + change (Z.eqb 24 0) with false. cbv iota. change ((32 - 24) / 8) with 1.
      split; [eapply G; [exact E|lia|lia]|lia].
Qed.

Lemma aligned_step m ptr : 2 <= m -> aligned m ptr ->
  aligned m (ptr + 8 * (m * m + cache_padding m)).
Proof.
  intros Hm H. pose proof (cache_stride_32 m Hm) as S.
  pose proof (Z.div_mod (8 * (m * m + cache_padding m)) 32 ltac:(lia)) as D.
  rewrite S in D. set (q := 8 * (m * m + cache_padding m) / 32) in *.
  unfold aligned in *. destruct (Z.eqb (m mod 2) 1); rewrite D.
  - replace (ptr + (32 * q + 0) + 8) with (ptr + 8 + q * 32) by lia.
    rewrite Z.mod_add by lia. exact H.
  - replace (ptr + (32 * q + 0)) with (ptr + q * 32) by lia.
    rewrite Z.mod_add by lia. exact H.
Qed.

(** Every vector in turn. *)
Definition stride (m : Z) : Z := 8 * (m * m + cache_padding m).

Lemma cache_assign_spec m : 2 <= m -> forall n ptr, aligned m ptr ->
  exists l, cache_assign m ptr n = Ok l /\ length l = n /\
    forall i, (i < n)%nat ->
      nth i l 0 = ptr + Z.of_nat i * stride m /\ aligned m (nth i l 0).
Proof.
  intro Hm. induction n as [|n IH]; intros ptr H.
  - exists []. split; [reflexivity|]. split; [reflexivity|]. intros i Hi. lia.
  - cbn [cache_assign]. rewrite not_misaligned by assumption.
    destruct (IH _ (aligned_step m ptr Hm H)) as (l & E & Hl & Hi).
    rewrite E. cbn [obind]. eexists. split; [reflexivity|].
    split; [cbn [length]; congruence|].
    intros i Hin. destruct i as [|i]; cbn [nth].
    + split; [lia|exact H].
    + destruct (Hi i ltac:(lia)) as [E1 A1]. split; [|exact A1].
      rewrite E1. unfold stride. rewrite Nat2Z.inj_succ. ring.
Qed.

Lemma cache_assign_one n : forall ptr,
  exists l, cache_assign 1 ptr n = Ok l /\ length l = n /\
    forall i, (i < n)%nat -> nth i l 0 = ptr + Z.of_nat i * stride 1.
Proof.
  induction n as [|n IH]; intros ptr.
  - exists []. split; [reflexivity|]. split; [reflexivity|]. intros i Hi. lia.
  - cbn [cache_assign]. replace (cache_misaligned 1 ptr) with false by reflexivity.
    destruct (IH (ptr + 8 * (1 * 1 + cache_padding 1))) as (l & E & Hl & Hi).
    rewrite E. cbn [obind]. eexists. split; [reflexivity|].
    split; [cbn [length]; congruence|].
    intros i Hin. destruct i as [|i]; cbn [nth]; [lia|].
    rewrite Hi by lia. unfold stride. rewrite Nat2Z.inj_succ. ring.
Qed.
