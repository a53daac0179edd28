From Coq Require Import ZArith Lia.
From Verif Require Import Err AllocModel.
Local Open Scope Z_scope.

(** The system's part: the block [base, base+needed) exists, is not at address 0 and does not wrap around. *)
Definition sys_ok (sys : Z -> option Z) : Prop :=
  forall k b, 0 <= k < SIZE -> sys k = Some b -> 0 < b /\ b + k < SIZE.

Lemma get_align_pow pow : 0 <= pow < 32 -> get_align pow = 2 ^ pow.
Proof.
  intros H. unfold get_align. apply Z.mod_small. split; [apply Z.pow_nonneg; lia|]. apply Z.pow_lt_mono_r; lia.
Qed.

Lemma mask_floor b pow : 0 <= pow < 32 -> 0 <= b < SIZE -> Z.land b (SIZE - 1 - szt (2 ^ pow - 1)) = b - b mod 2 ^ pow.
Proof.
  intros Hp Hb. pose proof (Z.pow_pos_nonneg 2 pow ltac:(lia) ltac:(lia)) as Hpos.
  assert (Hlt : 2 ^ pow < SIZE) by (apply Z.pow_lt_mono_r; lia).
  unfold szt. rewrite Z.mod_small by lia.
  transitivity (Z.ldiff b (Z.ones pow)).
  - apply Z.bits_inj'. intros k Hk. rewrite Z.land_spec, Z.ldiff_spec.
    destruct (Z.ltb_spec k 64) as [H64|H64].
    + f_equal. replace (SIZE - 1 - (2 ^ pow - 1)) with (2 ^ pow * (2 ^ (64 - pow) - 1)).
      2:{ unfold SIZE. rewrite Z.mul_sub_distr_l, <- Z.pow_add_r by lia. replace (pow + (64 - pow)) with 64 by lia. lia. }
      rewrite Z.mul_comm, Z.mul_pow2_bits by lia. destruct (Z.ltb_spec k pow) as [Hkp|Hkp].
      * rewrite Z.testbit_neg_r by lia. now rewrite Z.ones_spec_low by lia.
      * rewrite Z.ones_spec_high by lia. replace (2 ^ (64 - pow) - 1) with (Z.ones (64 - pow)) by (rewrite Z.ones_equiv; lia).
        now rewrite Z.ones_spec_low by lia.
    + assert (Hb0 : Z.testbit b k = false).
      { apply Z.bits_above_log2; [lia|]. apply Z.lt_le_trans with 64; [|lia].
        destruct (Z.eq_dec b 0) as [->|]; [reflexivity|]. apply Z.log2_lt_pow2; [lia|]. exact (proj2 Hb). }
      now rewrite Hb0.
  - rewrite Z.ldiff_ones_r by lia. rewrite Z.shiftr_div_pow2, Z.shiftl_mul_pow2 by lia.
    pose proof (Z.div_mod b (2 ^ pow) ltac:(lia)). lia.
Qed.

Lemma allocate_ok pow sz n sys m p m' : 0 <= pow < 32 -> 0 < sz -> 0 <= n -> sys_ok sys ->
  allocate pow sz n sys m = Ok (p, m') ->
  exists base, sys (n * sz + 2 ^ pow) = Some base /\ p mod 2 ^ pow = 0 /\ base <= p - 1 /\ p + n * sz <= base + (n * sz + 2 ^ pow) /\
  p + n * sz < SIZE /\ p = base + (2 ^ pow - base mod 2 ^ pow) /\ m' = poke m (p - 1) (u8 (p - base)).
Proof.
  intros Hp Hsz Hn Hs H. unfold allocate in H. rewrite get_align_pow in H by assumption.
  pose proof (Z.pow_pos_nonneg 2 pow ltac:(lia) ltac:(lia)) as Hpos.
  assert (Hlt : 2 ^ pow < SIZE) by (apply Z.pow_lt_mono_r; lia).
  destruct (Z.ltb_spec (max_size pow sz) n) as [|Hmax]; [discriminate|].
  unfold max_size in Hmax. rewrite get_align_pow in Hmax by assumption.
  assert (Hfit : n * sz + 2 ^ pow < SIZE).
  { pose proof (Z.mul_div_le (SIZE - 1 - 2 ^ pow) sz Hsz). nia. }
  assert (Hnn : 0 <= n * sz) by nia.
  replace (szt (szt (n * sz) + 2 ^ pow)) with (n * sz + 2 ^ pow) in H.
  2:{ unfold szt. rewrite (Z.mod_small (n * sz)) by lia. rewrite Z.mod_small; lia. }
  destruct (sys (n * sz + 2 ^ pow)) as [base|] eqn:E; [|discriminate].
  destruct (Hs (n * sz + 2 ^ pow) base ltac:(lia) E) as [Hb0 Hb1].
  pose proof (Z.mod_pos_bound base (2 ^ pow) Hpos) as Hmod.
  rewrite mask_floor in H by lia.
  assert (Hptr : szt (base - base mod 2 ^ pow + 2 ^ pow) = base + (2 ^ pow - base mod 2 ^ pow)).
  { unfold szt. rewrite Z.mod_small; [lia|]. pose proof (Z.mod_le base (2 ^ pow)). lia. }
  rewrite Hptr in H. injection H as <- <-.
  exists base. split; [reflexivity|]. split.
  { replace (base + (2 ^ pow - base mod 2 ^ pow)) with ((base / 2 ^ pow + 1) * 2 ^ pow).
    - apply Z.mod_mul. lia.
    - pose proof (Z.div_mod base (2 ^ pow) ltac:(lia)). lia. }
  split; [lia|]. split; [lia|]. split; [lia|]. split; [reflexivity|].
  f_equal; [unfold szt; rewrite Z.mod_small; lia|f_equal; lia].
Qed.

(** The distance from the block's start to the pointer fits in the stashed byte, or not. *)
Lemma deallocate_returns_base pow sz n sys m p m' m2 base : 0 <= pow < 32 -> 0 < sz -> 0 <= n -> sys_ok sys ->
  allocate pow sz n sys m = Ok (p, m') -> sys (n * sz + 2 ^ pow) = Some base ->
  m2 (p - 1) = m' (p - 1) ->
  deallocate m2 p = Some base <-> 2 ^ pow - base mod 2 ^ pow < 256.
Proof.
  intros Hp Hsz Hn Hs H Hb Hm2. destruct (allocate_ok _ _ _ _ _ _ _ Hp Hsz Hn Hs H) as (b & Eb & Hal & Hlo & Hhi & Hsize & Ep & Em).
  assert (b = base) by congruence. subst b.
  pose proof (Z.pow_pos_nonneg 2 pow ltac:(lia) ltac:(lia)) as Hpos.
  assert (Hlt : 2 ^ pow < SIZE) by (apply Z.pow_lt_mono_r; lia).
  assert (Hnn : 0 <= n * sz) by nia.
  assert (Hfit : n * sz + 2 ^ pow < SIZE).
  { unfold allocate in H. destruct (Z.ltb_spec (max_size pow sz) n) as [|Hmax]; [discriminate|].
    unfold max_size in Hmax. rewrite get_align_pow in Hmax by assumption.
    pose proof (Z.mul_div_le (SIZE - 1 - 2 ^ pow) sz Hsz). nia. }
  destruct (Hs (n * sz + 2 ^ pow) base ltac:(lia) Eb) as [Hb0 Hb1].
  pose proof (Z.mod_pos_bound base (2 ^ pow) Hpos) as Hmod.
  unfold deallocate. destruct (Z.eqb_spec p 0); [lia|].
  assert (E1 : szt (p - 1) = p - 1) by (unfold szt; rewrite Z.mod_small; lia).
  rewrite E1, Hm2, Em. unfold poke. rewrite Z.eqb_refl. unfold u8.
  pose proof (Z.mod_pos_bound (p - base) 256 ltac:(lia)) as Hu.
  pose proof (Z.mod_le (p - base) 256 ltac:(lia) ltac:(lia)) as Hle.
  assert (E2 : szt (p - (p - base) mod 256) = p - (p - base) mod 256) by (unfold szt; rewrite Z.mod_small; lia).
  rewrite E2. split.
  - intros Heq. injection Heq as Heq. assert ((p - base) mod 256 = p - base) by lia. lia.
  - intros Hd. f_equal. rewrite Z.mod_small; lia.
Qed.

Lemma allocate_refused pow sz n sys m : 0 <= pow < 32 -> 0 < sz -> 0 <= n -> SIZE <= n * sz + 2 ^ pow -> allocate pow sz n sys m = Throw BadAlloc.
Proof.
  intros Hp Hsz Hn Hbig. unfold allocate, max_size. rewrite get_align_pow by assumption.
  destruct (Z.ltb_spec ((SIZE - 1 - 2 ^ pow) / sz) n) as [|Hle]; [reflexivity|].
  exfalso. pose proof (Z.mul_div_le (SIZE - 1 - 2 ^ pow) sz Hsz). nia.
Qed.
