(** Doubles as real numbers: the operations of [DblModel] round the exact results (to nearest, ties to even).
    This connects the library's [SpecFloat] with Flocq's theory of rounding; nothing is assumed. *)
From Coq Require Import List Arith ZArith Reals Bool Lia Lra.
From Coq Require Import SpecFloat.
From Flocq Require Import Zaux Raux Defs Generic_fmt Float_prop Round_NE FLT Ulp Relative BinarySingleNaN.
From Verif Require Import Err DblModel DblSpec DblProofs.
Local Open Scope R_scope.

Definition bits := binary_float 53 1024.
Lemma Hprec : FLX.Prec_gt_0 53. Proof. reflexivity. Qed.
Lemma Hmax : Prec_lt_emax 53 1024. Proof. reflexivity. Qed.
#[local] Existing Instance Hprec.
#[local] Existing Instance Hmax.

(** A bit pattern that exists. *)
Definition is_double (x : double) : Prop := SpecFloat.valid_binary 53 1024 x = true.
(** Its value; infinities and NaN count as 0. *)
Definition value (x : double) : R := SF2R radix2 x.
(** Rounding to the nearest double, without overflow. *)
Definition rnd (x : R) : R := round radix2 (SpecFloat.fexp 53 1024) ZnearestE x.
Definition top : R := bpow radix2 1024.

Lemma bits_of x : is_double x -> exists a : bits, x = B2SF a.
Proof. intro H. exists (SF2B x H). symmetry. apply B2SF_SF2B. Qed.
Lemma bits_ok (a : bits) : is_double (B2SF a).
Proof. apply valid_binary_B2SF. Qed.
Lemma value_bits (a : bits) : value (B2SF a) = B2R a.
Proof. now destruct a. Qed.
Lemma finite_bits (a : bits) : finite (B2SF a) <-> is_finite a = true.
Proof. destruct a; cbn; intuition discriminate. Qed.

Lemma round_even_equiv s m l : round_nearest_even m l = choice_mode mode_NE s m l.
Proof. destruct l as [|c]; [reflexivity|]. destruct c; [|reflexivity..]. now cbn; unfold Round.cond_incr; case Z.even. Qed.
Lemma round_aux_equiv sx mx ex lx : SpecFloat.binary_round_aux 53 1024 sx mx ex lx = binary_round_aux 53 1024 mode_NE sx mx ex lx.
Proof.
  unfold SpecFloat.binary_round_aux, binary_round_aux. set (q := shr_fexp _ _ _). destruct q as [m e]. cbn.
  now rewrite (round_even_equiv sx).
Qed.
Lemma round_equiv s m e : SpecFloat.binary_round 53 1024 s m e = binary_round 53 1024 mode_NE s m e.
Proof. unfold SpecFloat.binary_round, binary_round, shl_align_fexp. set (q := shl_align _ _ _). destruct q. apply round_aux_equiv. Qed.
Lemma normalize_equiv m e z : SpecFloat.binary_normalize 53 1024 m e z = B2SF (binary_normalize 53 1024 Hprec Hmax mode_NE m e z).
Proof. destruct m as [|p|p]; [reflexivity| |]; cbn; rewrite B2SF_SF2B; apply round_equiv. Qed.

Lemma mul_bits (a b : bits) : dmul (B2SF a) (B2SF b) = B2SF (Bmult mode_NE a b).
Proof. destruct a as [sx|sx| |sx mx ex Bx], b as [sy|sy| |sy my ey By]; [trivial..|]. cbn. rewrite B2SF_SF2B. apply round_aux_equiv. Qed.
Lemma add_bits (a b : bits) : dadd (B2SF a) (B2SF b) = B2SF (Bplus mode_NE a b).
Proof. destruct a as [sx|sx| |sx mx ex Bx], b as [sy|sy| |sy my ey By]; [now (trivial || cbn; case Bool.eqb)..|]. apply normalize_equiv. Qed.
Lemma sub_bits (a b : bits) : dsub (B2SF a) (B2SF b) = B2SF (Bminus mode_NE a b).
Proof.
  destruct a as [sx|sx| |sx mx ex Bx], b as [sy|sy| |sy my ey By]; [now (trivial || cbn; case Bool.eqb)..|].
  unfold dsub. simpl. unfold Zminus. rewrite <- cond_Zopp_negb. apply normalize_equiv.
Qed.
Lemma div_bits (a b : bits) : ddiv (B2SF a) (B2SF b) = B2SF (Bdiv mode_NE a b).
Proof.
  destruct a as [sx|sx| |sx mx ex Bx], b as [sy|sy| |sy my ey By]; [now (trivial || cbn; case Bool.eqb)..|].
  unfold ddiv. simpl. rewrite B2SF_SF2B. set (q := SFdiv_core_binary _ _ _ _ _ _). destruct q as [[mz ez] lz]. apply round_aux_equiv.
Qed.
Lemma root_bits (a : bits) : droot (B2SF a) = B2SF (Bsqrt mode_NE a).
Proof.
  destruct a as [sx|sx| |sx mx ex Bx]; [now (trivial || case sx)..|]. destruct sx; [reflexivity|].
  unfold droot. simpl. rewrite B2SF_SF2B. set (q := SFsqrt_core_binary _ _ _ _). destruct q as [[mz ez] lz]. apply round_aux_equiv.
Qed.

(** ** Results of operations are doubles *)
Lemma add_double x y : is_double x -> is_double y -> is_double (dadd x y).
Proof. intros X Y. destruct (bits_of x X) as [a ->], (bits_of y Y) as [b ->]. rewrite add_bits. apply bits_ok. Qed.
Lemma sub_double x y : is_double x -> is_double y -> is_double (dsub x y).
Proof. intros X Y. destruct (bits_of x X) as [a ->], (bits_of y Y) as [b ->]. rewrite sub_bits. apply bits_ok. Qed.
Lemma mul_double x y : is_double x -> is_double y -> is_double (dmul x y).
Proof. intros X Y. destruct (bits_of x X) as [a ->], (bits_of y Y) as [b ->]. rewrite mul_bits. apply bits_ok. Qed.
Lemma div_double x y : is_double x -> is_double y -> is_double (ddiv x y).
Proof. intros X Y. destruct (bits_of x X) as [a ->], (bits_of y Y) as [b ->]. rewrite div_bits. apply bits_ok. Qed.
Lemma root_double x : is_double x -> is_double (droot x).
Proof. intros X. destruct (bits_of x X) as [a ->]. rewrite root_bits. apply bits_ok. Qed.

(** ** They are the rounded exact results, unless too large *)
Lemma add_value x y : is_double x -> is_double y -> finite x -> finite y -> Rabs (rnd (value x + value y)) < top ->
  finite (dadd x y) /\ value (dadd x y) = rnd (value x + value y).
Proof.
  intros X Y Fx Fy T. destruct (bits_of x X) as [a ->], (bits_of y Y) as [b ->]. rewrite add_bits, finite_bits, !value_bits in *.
  pose proof (Bplus_correct 53 1024 Hprec Hmax mode_NE a b Fx Fy) as H. apply Rlt_bool_true in T. unfold rnd, top in T. cbn [round_mode] in H. rewrite T in H. tauto.
Qed.
Lemma sub_value x y : is_double x -> is_double y -> finite x -> finite y -> Rabs (rnd (value x - value y)) < top ->
  finite (dsub x y) /\ value (dsub x y) = rnd (value x - value y).
Proof.
  intros X Y Fx Fy T. destruct (bits_of x X) as [a ->], (bits_of y Y) as [b ->]. rewrite sub_bits, finite_bits, !value_bits in *.
  pose proof (Bminus_correct 53 1024 Hprec Hmax mode_NE a b Fx Fy) as H. apply Rlt_bool_true in T. unfold rnd, top in T. cbn [round_mode] in H. rewrite T in H. tauto.
Qed.
Lemma mul_value x y : is_double x -> is_double y -> finite x -> finite y -> Rabs (rnd (value x * value y)) < top ->
  finite (dmul x y) /\ value (dmul x y) = rnd (value x * value y).
Proof.
  intros X Y Fx Fy T. destruct (bits_of x X) as [a ->], (bits_of y Y) as [b ->]. rewrite mul_bits, finite_bits, !value_bits in *.
  pose proof (Bmult_correct 53 1024 Hprec Hmax mode_NE a b) as H. apply Rlt_bool_true in T. unfold rnd, top in T. cbn [round_mode] in H. rewrite T in H.
  rewrite Fx, Fy in H. tauto.
Qed.
Lemma div_value x y : is_double x -> is_double y -> finite x -> finite y -> value y <> 0 -> Rabs (rnd (value x / value y)) < top ->
  finite (ddiv x y) /\ value (ddiv x y) = rnd (value x / value y).
Proof.
  intros X Y Fx Fy N T. destruct (bits_of x X) as [a ->], (bits_of y Y) as [b ->]. rewrite div_bits, finite_bits, !value_bits in *.
  pose proof (Bdiv_correct 53 1024 Hprec Hmax mode_NE a b N) as H. apply Rlt_bool_true in T. unfold rnd, top in T. cbn [round_mode] in H. rewrite T in H.
  rewrite Fx in H. tauto.
Qed.
Lemma root_value x : is_double x -> finite x -> 0 <= value x -> finite (droot x) /\ value (droot x) = rnd (sqrt (value x)).
Proof.
  intros X Fx N. destruct (bits_of x X) as [a ->]. rewrite root_bits, finite_bits, !value_bits in *.
  pose proof (Bsqrt_correct 53 1024 Hprec Hmax mode_NE a) as (H & F & _). cbn [round_mode] in H. split; [|exact H]. rewrite F.
  destruct a as [s|s| |[] m e B]; try reflexivity; try discriminate Fx. exfalso. cbn in N.
  pose proof (F2R_lt_0 radix2 (Float radix2 (Zneg m) e) eq_refl). unfold F2R in *. cbn in *. lra.
Qed.

(** ** Comparisons *)
Lemma compare_value x y : is_double x -> is_double y -> finite x -> finite y -> SFcompare x y = Some (Rcompare (value x) (value y)).
Proof.
  intros X Y Fx Fy. destruct (bits_of x X) as [a ->], (bits_of y Y) as [b ->]. rewrite finite_bits in *. rewrite !value_bits.
  exact (Bcompare_correct 53 1024 a b Fx Fy).
Qed.
Lemma less_value x y : is_double x -> is_double y -> finite x -> finite y -> (less x y <-> value x < value y).
Proof.
  intros X Y Fx Fy. unfold less. rewrite compare_value by assumption. split.
  - intros [= H]. now apply Rcompare_Lt_inv.
  - intro H. now rewrite Rcompare_Lt.
Qed.
Lemma same_value x y : is_double x -> is_double y -> finite x -> finite y -> (same x y <-> value x = value y).
Proof.
  intros X Y Fx Fy. unfold same. rewrite compare_value by assumption. split.
  - intros [= H]. now apply Rcompare_Eq_inv.
  - intro H. now rewrite Rcompare_Eq.
Qed.
Lemma at_most_value x y : is_double x -> is_double y -> finite x -> finite y -> (at_most x y <-> value x <= value y).
Proof. intros X Y Fx Fy. unfold at_most. rewrite less_value, same_value by assumption. lra. Qed.

(** ** Rounding *)
Lemma fexp_flt : SpecFloat.fexp 53 1024 = FLT_exp (-1074) 53.
Proof. reflexivity. Qed.
#[global] Instance fexp_valid : Valid_exp (SpecFloat.fexp 53 1024).
Proof. apply FLT_exp_valid. reflexivity. Qed.
Lemma rnd_le x y : x <= y -> rnd x <= rnd y.
Proof. intro H. unfold rnd. apply round_le; [apply fexp_valid|apply valid_rnd_N|exact H]. Qed.
Lemma rnd_double x : is_double x -> rnd (value x) = value x.
Proof.
  intro X. destruct (bits_of x X) as [a ->]. rewrite value_bits. unfold rnd. apply round_generic; [apply valid_rnd_N|]. apply generic_format_B2R.
Qed.
Lemma rnd_0 : rnd 0 = 0.
Proof. apply round_0. apply valid_rnd_N. Qed.
Lemma value_top x : is_double x -> Rabs (value x) < top.
Proof. intro X. destruct (bits_of x X) as [a ->]. rewrite value_bits. apply abs_B2R_lt_emax. Qed.
