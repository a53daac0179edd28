(** Property C11: aligned allocation. *)
From Coq Require Import ZArith Lia.
From Verif Require Import Err AllocModel AllocProofs.
Local Open Scope Z_scope.

(** For alignments up to 128 bytes (the byte stash reaches 255): the pointer is aligned; the byte before it and the n*sizeof(T) bytes from it lie in
    the system's block; whatever is written outside the stash byte, releasing the pointer hands the system's address back. *)
Theorem c11_aligned_block : forall pow sz n sys m p m', 0 <= pow <= 7 -> 0 < sz -> 0 <= n -> sys_ok sys ->
  allocate pow sz n sys m = Ok (p, m') ->
  exists base, sys (n * sz + 2 ^ pow) = Some base /\ p mod 2 ^ pow = 0 /\
  base <= p - 1 /\ p + n * sz <= base + (n * sz + 2 ^ pow) /\
  (forall q, q <> p - 1 -> m' q = m q) /\
  (forall m2, m2 (p - 1) = m' (p - 1) -> deallocate m2 p = Some base).
Proof.
  intros pow sz n sys m p m' Hp Hsz Hn Hs H.
  destruct (allocate_ok pow sz n sys m p m' ltac:(lia) Hsz Hn Hs H) as (b & Eb & H1 & H2 & H3 & H4 & H5 & H6).
  exists b. repeat split; trivial.
  - intros q Hq. rewrite H6. unfold poke. destruct (Z.eqb_spec q (p - 1)); congruence.
  - intros m2 Hm2. apply (deallocate_returns_base pow sz n sys m p m'); trivial; [lia|].
    pose proof (Z.pow_le_mono_r 2 pow 7 ltac:(lia) ltac:(lia)). change (2 ^ 7) with 128 in *.
    pose proof (Z.mod_pos_bound b (2 ^ pow) ltac:(apply Z.pow_pos_nonneg; lia)). lia.
Qed.
Example c11_nonvacuous : let sys := fun k => if Z.leb k 1000 then Some 70001 else None in
  sys_ok sys /\ exists m', allocate 5 8 12 sys (fun _ => 77) = Ok (70016, m') /\ m' 70015 = 15 /\ deallocate m' 70016 = Some 70001.
Proof.
  cbv zeta. split.
  - intros k b Hk. destruct (Z.leb_spec k 1000); [|discriminate]. intros [= <-]. unfold SIZE. lia.
  - eexists. repeat split.
Qed.
Print Assumptions c11_aligned_block.

(** Any supported alignment: exactly when releasing the pointer hands back the system's address. *)
Theorem c11_release_iff : forall pow sz n sys m p m' m2 base, 0 <= pow < 32 -> 0 < sz -> 0 <= n -> sys_ok sys ->
  allocate pow sz n sys m = Ok (p, m') -> sys (n * sz + 2 ^ pow) = Some base -> m2 (p - 1) = m' (p - 1) ->
  (deallocate m2 p = Some base <-> 2 ^ pow - base mod 2 ^ pow < 256).
Proof. exact deallocate_returns_base. Qed.
Print Assumptions c11_release_iff.

(** Requests too large for size_t are refused, whatever the system would do. *)
Theorem c11_overflow_refused : forall pow sz n sys m, 0 <= pow < 32 -> 0 < sz -> 0 <= n ->
  SIZE <= n * sz + 2 ^ pow -> allocate pow sz n sys m = Throw BadAlloc.
Proof. exact allocate_refused. Qed.
Example c11_overflow_nonvacuous : SIZE <= 2 ^ 61 * 8 + 2 ^ 5. Proof. unfold SIZE. lia. Qed.
Print Assumptions c11_overflow_refused.

(** From 256 bytes on, releasing can hand the system a different address than it gave out. *)
Theorem c11_large_alignment_refuted : forall pow, 8 <= pow < 32 -> exists base sz n m p m',
  sys_ok (fun k => if Z.leb k (2 ^ 40) then Some base else None) /\
  allocate pow sz n (fun k => if Z.leb k (2 ^ 40) then Some base else None) m = Ok (p, m') /\ deallocate m' p <> Some base.
Proof.
  intros pow Hp. pose proof (Z.pow_pos_nonneg 2 pow ltac:(lia) ltac:(lia)) as Hpos.
  assert (H256 : 256 <= 2 ^ pow) by (change 256 with (2 ^ 8); apply Z.pow_le_mono_r; lia).
  assert (H31 : 2 ^ pow <= 2 ^ 31) by (apply Z.pow_le_mono_r; lia).
  set (sys := fun k => if Z.leb k (2 ^ 40) then Some (2 ^ pow) else None).
  assert (Hs : sys_ok sys).
  { intros k b Hk. unfold sys. destruct (Z.leb_spec k (2 ^ 40)); [|discriminate]. intros [= <-]. unfold SIZE.
    change (2 ^ 40) with 1099511627776 in *. change (2 ^ 31) with 2147483648 in *. change (2 ^ 64) with 18446744073709551616. lia. }
  assert (Hsys : sys (1 * 8 + 2 ^ pow) = Some (2 ^ pow)).
  { unfold sys. destruct (Z.leb_spec (1 * 8 + 2 ^ pow) (2 ^ 40)); [reflexivity|]. change (2 ^ 40) with 1099511627776 in *.
    change (2 ^ 31) with 2147483648 in *. lia. }
  destruct (allocate pow 8 1 sys (fun _ => 0)) as [[p m']| |] eqn:E.
  - exists (2 ^ pow), 8, 1, (fun _ => 0), p, m'. split; [exact Hs|]. split; [exact E|]. intros Hd.
    apply (deallocate_returns_base pow 8 1 sys (fun _ => 0) p m' m' (2 ^ pow)) in Hd; trivial; try lia.
    rewrite Z.mod_same in Hd; lia.
  - exfalso. unfold allocate in E. rewrite (get_align_pow pow) in E by lia.
    assert (Hmx : max_size pow 8 >= 1).
    { unfold max_size. rewrite get_align_pow by lia. apply Z.le_ge. apply Z.div_le_lower_bound; [lia|].
      unfold SIZE. change (2 ^ 31) with 2147483648 in *. change (2 ^ 64) with 18446744073709551616. lia. }
    destruct (Z.ltb_spec (max_size pow 8) 1); [lia|].
    replace (szt (szt (1 * 8) + 2 ^ pow)) with (1 * 8 + 2 ^ pow) in E.
    + rewrite Hsys in E. discriminate.
    + unfold szt, SIZE. change (2 ^ 31) with 2147483648 in *. rewrite !Z.mod_small; trivial; change (2 ^ 64) with 18446744073709551616; try lia. rewrite Z.mod_small; lia.
  - exfalso. unfold allocate in E. destruct (Z.ltb_spec (max_size pow 8) 1); [discriminate|]. cbv zeta in E. match type of E with context [sys ?x] => destruct (sys x); discriminate E end.
Qed.
Print Assumptions c11_large_alignment_refuted.
