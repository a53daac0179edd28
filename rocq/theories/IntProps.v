(** C35-C42: targets, cache layout, padding, regeneration, matter potential. *)
From Coq Require Import Reals List ZArith Bool Arith Lia Lra Psatz.
From Verif Require Import Err TauModel XsModel XsProofs IntModel IntProofs IntLayoutProofs.
Import ListNotations.
Open Scope R_scope.

(** ** C35: target number densities *)

Definition good_consts (k : consts) : Prop :=
  0 < k_me k /\ 0 < k_mp k /\ 0 < k_mn k /\ 0 < k_gcm3 k /\ 0 < k_nacm3 k /\ 0 < k_HI k.

(** Protons and neutrons treated separately: mass density, electron fraction,
    signs, and the fractions used for weighting. *)
Theorem c35_nucleons k rho ye :
  good_consts k -> 0 <= ye <= 1 ->
  exists np nn, target_densities k false rho ye = [np; nn] /\
    (k_me k + k_mp k) * np + k_mn k * nn = k_gcm3 k * rho /\
    np = ye * (np + nn) /\
    (0 <= rho -> 0 <= np /\ 0 <= nn) /\
    (0 < rho -> 0 < np + nn /\
       target_fractions 2 ye = [np / (np + nn); nn / (np + nn)]).
Proof.
  intros (Hme & Hmp & Hmn & Hg & _) Hye. unfold target_densities, target_fractions.
  cbn [Nat.eqb].
  destruct (Req_EM_T ye 0) as [E|E].
  - subst ye. exists 0, (k_gcm3 k * rho / k_mn k). split; [reflexivity|].
    assert (P : 0 < / k_mn k) by (apply Rinv_0_lt_compat; lra).
    repeat split.
    + field. lra.
    + lra.
    + lra.
    + intros. apply Rmult_le_pos; [apply Rmult_le_pos; lra|lra].
    + assert (0 < k_gcm3 k * rho / k_mn k) by (apply Rmult_lt_0_compat; [apply Rmult_lt_0_compat; lra|lra]). lra.
    + f_equal; [|f_equal]; field; repeat split; try lra.
  - set (D := k_me k + k_mp k + k_mn k * ((1 - ye) / ye)).
    assert (Hy : 0 < ye) by lra.
    assert (P : 0 <= (1 - ye) / ye) by (apply Rmult_le_pos; [lra|left; apply Rinv_0_lt_compat; lra]).
    assert (HD : 0 < D) by (unfold D; nra).
    assert (HDy : D * ye = (k_me k + k_mp k) * ye + k_mn k * (1 - ye)) by (unfold D; field; lra).
    assert (PD : 0 < / D) by (apply Rinv_0_lt_compat; lra).
    assert (Py : 0 < / ye) by (apply Rinv_0_lt_compat; lra).
    exists (k_gcm3 k * rho / D), ((1 - ye) * (k_gcm3 k * rho / D) / ye).
    split; [reflexivity|].
    assert (S : k_gcm3 k * rho / D + (1 - ye) * (k_gcm3 k * rho / D) / ye
                = k_gcm3 k * rho / D / ye) by (field; lra).
    repeat split.
    + transitivity (k_gcm3 k * rho / D * (((k_me k + k_mp k) * ye + k_mn k * (1 - ye)) / ye)).
      * field. lra.
      * rewrite <- HDy. field. lra.
    + rewrite S. field. lra.
    + apply Rmult_le_pos; [apply Rmult_le_pos; lra|lra].
    + unfold Rdiv at 1. apply Rmult_le_pos; [|lra]. apply Rmult_le_pos; [lra|].
      apply Rmult_le_pos; [apply Rmult_le_pos; lra|lra].
    + rewrite S. unfold Rdiv. repeat apply Rmult_lt_0_compat; lra.
    + rewrite S. assert (k_gcm3 k * rho <> 0) by (apply Rgt_not_eq, Rmult_lt_0_compat; lra).
      f_equal; [|f_equal]; field; repeat split; try lra.
      all: intro Z0; apply H0; nra.
Qed.

(** One kind of target: the fraction is one; for matter with as many protons
    as neutrons the densities (of electrons as used by the Glashow term:
    [ye] times nucleons) give the mass density, unless the floor is hit. *)
Theorem c35_isoscalar_partial k rho n :
  good_consts k -> target_densities k true rho (1 / 2) = [n] ->
  1 / 10 ^ 10 <= k_gcm3 k * rho * 2 / (k_me k + k_mp k + k_mn k) ->
  target_fractions 1 (1 / 2) = [1] /\
  k_me k * (1 / 2 * n) + k_mp k * (1 / 2 * n) + k_mn k * (1 / 2 * n) = k_gcm3 k * rho.
Proof.
  intros (Hme & Hmp & Hmn & Hg & _) E L. split; [reflexivity|].
  unfold target_densities in E. injection E as <-.
  rewrite (rlt_false _ _) by lra. field. lra.
Qed.

(** The full claim fails for one kind of target: below the floor the number of
    targets is replaced by a constant, so vacuum has as many as matter. *)
Theorem c35_vacuum_refuted k ye :
  good_consts k -> exists n, target_densities k true 0 ye = [n] /\ 0 < n.
Proof.
  intros (Hme & Hmp & Hmn & Hg & Hn & _).
  eexists. split; [reflexivity|]. cbv zeta.
  assert (P : 0 < 1 / 10 ^ 10) by lra.
  rewrite (rlt_true _ _).
  - apply Rmult_lt_0_compat; lra.
  - replace (k_gcm3 k * 0 * 2 / (k_me k + k_mp k + k_mn k)) with 0 by (field; lra). lra.
Qed.

(** ... and the mass is off whenever a proton with its electron does not weigh
    as much as a neutron and the medium is not isoscalar. *)
Theorem c35_isoscalar_mass_refuted k rho ye n :
  good_consts k -> k_me k + k_mp k <> k_mn k -> ye <> 1 / 2 ->
  target_densities k true rho ye = [n] ->
  1 / 10 ^ 10 <= k_gcm3 k * rho * 2 / (k_me k + k_mp k + k_mn k) ->
  k_me k * (ye * n) + k_mp k * (ye * n) + k_mn k * ((1 - ye) * n) <> k_gcm3 k * rho.
Proof.
  intros (Hme & Hmp & Hmn & Hg & _) Hm Hy E L H.
  unfold target_densities in E. injection E as E.
  rewrite (rlt_false _ _) in E by lra.
  assert (En : n * (k_me k + k_mp k + k_mn k) = 2 * (k_gcm3 k * rho)) by (rewrite <- E; field; lra).
  assert (0 < n).
  { rewrite <- E. apply Rlt_le_trans with (1 / 10 ^ 10); [lra|exact L]. }
  assert (Z : n * ((k_me k + k_mp k - k_mn k) * (ye - 1 / 2)) = 0) by nra.
  apply Rmult_integral in Z. destruct Z as [Z|Z]; [lra|].
  apply Rmult_integral in Z. destruct Z as [Z|Z]; lra.
Qed.

Definition ex_k := MkConsts (1 / 2) (1 / 2) 1 1 1 1.
Example c35_example : good_consts ex_k /\ target_densities ex_k false 2 (1 / 2) = [1; 1].
Proof.
  split; [unfold good_consts, ex_k; cbn; lra|].
  unfold target_densities, ex_k. cbn [k_me k_mp k_mn k_gcm3].
  destruct (Req_EM_T (1 / 2) 0); [lra|]. f_equal; [|f_equal]; field.
Qed.

(** ** C36: layout of the cache *)

(** Whatever address (a multiple of 8) the allocator returns: no logic_error,
    every vector inside the block, aligned, and clear of the next one. *)
Theorem c36_layout numneu base nv :
  (1 <= numneu)%Z -> (base mod 8 = 0)%Z -> (1 <= nv)%nat ->
  exists l, setup_cache numneu base nv = Ok l /\ length l = nv /\
    (forall i, (i < nv)%nat ->
       (base <= nth i l 0)%Z /\
       (nth i l 0 + 8 * (numneu * numneu)
        <= base + 8 * cache_size numneu (Z.of_nat nv))%Z) /\
    (forall i, (i < nv)%nat -> (2 <= numneu)%Z ->
       (if Z.eqb (numneu mod 2) 1 then (nth i l 0 + 8) mod 32 = 0
        else nth i l 0 mod 32 = 0)%Z) /\
    (forall i j, (i < j < nv)%nat ->
       (nth i l 0 + 8 * (numneu * numneu) <= nth j l 0)%Z).
Proof.
  intros Hm Hb Hn. pose proof (cache_padding_range numneu) as Hp.
  assert (Hs : (0 <= numneu * numneu)%Z) by nia.
  assert (G : exists l, setup_cache numneu base nv = Ok l /\ length l = nv /\
    (forall i, (i < nv)%nat ->
       nth i l 0 = cache_start numneu base + Z.of_nat i * stride numneu)%Z /\
    (forall i, (i < nv)%nat -> (2 <= numneu)%Z -> aligned numneu (nth i l 0%Z)) /\
    (base <= cache_start numneu base <= base + 8 * cache_headroom numneu)%Z).
  { destruct (Z.eq_dec numneu 1) as [->|H1].
    - destruct (cache_assign_one nv (cache_start 1 base)) as (l & E & Hl & Hi).
      exists l. repeat split; try assumption; try lia.
      + cbn. lia.
      + cbn. lia.
    - destruct (cache_start_spec numneu base ltac:(lia) Hb) as [A R0].
      destruct (cache_assign_spec numneu ltac:(lia) nv _ A) as (l & E & Hl & Hi).
      exists l. repeat split; try assumption; try lia.
      + intros i Hin. apply Hi. exact Hin.
      + intros i Hin _. apply Hi. exact Hin. }
  destruct G as (l & E & Hl & Hi & Ha & R0).
  assert (St : (0 <= stride numneu)%Z) by (unfold stride; lia).
  exists l. split; [exact E|]. split; [exact Hl|]. split; [|split].
  - intros i Hin. rewrite Hi by exact Hin. unfold cache_size, stride in *.
    assert (Z.of_nat i <= Z.of_nat nv - 1)%Z by lia.
    split; [nia|].
    assert (Z.of_nat i * (numneu * numneu + cache_padding numneu)
            <= (Z.of_nat nv - 1) * (numneu * numneu + cache_padding numneu))%Z
      by (apply Z.mul_le_mono_nonneg_r; lia).
    nia.
  - intros i Hin H2. exact (Ha i Hin H2).
  - intros i j Hij. rewrite !Hi by lia. unfold stride.
    assert (Z.of_nat i + 1 <= Z.of_nat j)%Z by lia.
    assert ((Z.of_nat i + 1) * (numneu * numneu + cache_padding numneu)
            <= Z.of_nat j * (numneu * numneu + cache_padding numneu))%Z
      by (apply Z.mul_le_mono_nonneg_r; lia).
    nia.
Qed.

Example c36_example :
  setup_cache 3 40 2 = Ok [56; 152]%Z /\ cache_size 3 2 = 24%Z.
Proof. split; reflexivity. Qed.

(** A block that fits what the object now needs. *)
Definition cache_fits (o : cache_obj) (nrhos ne : nat) (numneu : Z) : Prop :=
  length (co_addrs o) = Nat.mul nrhos ne /\
  forall i, (i < Nat.mul nrhos ne)%nat ->
    (co_base o <= nth i (co_addrs o) 0)%Z /\
    (nth i (co_addrs o) 0 + 8 * (numneu * numneu) <= co_base o + 8 * co_size o)%Z /\
    forall j, (i < j)%nat -> (j < Nat.mul nrhos ne)%nat ->
      (nth i (co_addrs o) 0 + 8 * (numneu * numneu) <= nth j (co_addrs o) 0)%Z.

(** Any sequence of set-ups with the same number of flavours. *)
Theorem c36_setup_partial old base nrhos ne numneu :
  (1 <= numneu)%Z -> (base mod 8 = 0)%Z -> (1 <= nrhos)%nat -> (1 <= ne)%nat ->
  (forall o, old = Some o -> cache_fits o (co_nrhos o) (co_ne o) numneu) ->
  exists o, setup_interaction_cache old base nrhos ne numneu = Ok o /\
            co_nrhos o = nrhos /\ co_ne o = ne /\ cache_fits o nrhos ne numneu.
Proof.
  intros Hm Hb Hr He Hold.
  assert (F : exists o,
    obind (setup_cache numneu base (Nat.mul nrhos ne)) (fun l =>
      Ok (MkCache nrhos ne numneu base (cache_size numneu (Z.of_nat (Nat.mul nrhos ne))) l)) = Ok o /\
    co_nrhos o = nrhos /\ co_ne o = ne /\ cache_fits o nrhos ne numneu).
  { destruct (c36_layout numneu base (Nat.mul nrhos ne) Hm Hb ltac:(nia)) as (l & E & Hl & Hi & _ & Hj).
    rewrite E. cbn [obind]. eexists. split; [reflexivity|].
    unfold cache_fits. cbn [co_nrhos co_ne co_addrs co_base co_size].
    repeat split; try assumption; try (apply Hi; assumption).
    intros j Hij Hjn. apply Hj. split; assumption. }
  unfold setup_interaction_cache. destruct old as [o|]; [|exact F].
  destruct (Nat.eqb_spec (co_nrhos o) nrhos) as [E1|E1]; [|exact F].
  destruct (Nat.eqb_spec (co_ne o) ne) as [E2|E2]; [|exact F].
  cbn [andb]. exists o. split; [reflexivity|]. split; [exact E1|]. split; [exact E2|].
  rewrite <- E1, <- E2. apply (Hold o eq_refl).
Qed.

(** A block made for three flavours is kept when the object then describes
    four (it has read a state file): it does not fit. *)
Theorem c36_reuse_refuted : exists o,
  setup_interaction_cache None 0 1 10 3 = Ok o /\
  setup_interaction_cache (Some o) 0 1 10 4 = Ok o /\ ~ cache_fits o 1 10 4.
Proof.
  destruct (setup_interaction_cache None 0 1 10 3) as [o| |] eqn:E; try discriminate E.
  exists o. split; [reflexivity|]. injection E as <-. split; [reflexivity|].
  intros (_ & H). destruct (H 9%nat ltac:(cbn; lia)) as (_ & H1 & _). vm_compute in H1. congruence.
Qed.

(** ** C37: padding *)

Theorem c37_least_multiple n :
  (0 <= n <= two64 - 4)%Z ->
  (round_up_to_aligned n mod 4 = 0)%Z /\ (n <= round_up_to_aligned n < n + 4)%Z /\
  forall m, (m mod 4 = 0)%Z -> (n <= m)%Z -> (round_up_to_aligned n <= m)%Z.
Proof.
  intros [H0 Hn]. rewrite (round_up_div n H0 Hn).
  pose proof (Z.div_mod (n + 3) 4 ltac:(lia)). pose proof (Z.mod_pos_bound (n + 3) 4 ltac:(lia)).
  split; [rewrite Z.mul_comm; apply Z.mod_mul; lia|]. split; [lia|].
  intros m Hm Hle. pose proof (Z.div_mod m 4 ltac:(lia)). lia.
Qed.

Example c37_example : map round_up_to_aligned [0; 1; 3; 4; 5; 101]%Z = [0; 4; 4; 4; 8; 104]%Z.
Proof. reflexivity. Qed.

(** The two ways of obtaining the interaction term, starting from whatever the
    buffers held. *)
Definition term_noosc dot proj st c t old rne r e : vec :=
  cache_noosc dot proj st c t (update_lengths c t old) rne r e.
Definition term_osc dot proj st c t old fold r e : vec :=
  interactions_osc proj c (update_osc dot proj st c t (update_lengths c t old) fold) r e.

(** Tables that agree on the real nodes. *)
Definition same_nodes (c : iconf) (t t' : itables) : Prop :=
  forall g r f e2 e1, (e2 < c_ne c)%nat -> (e1 < c_ne c)%nat ->
    t_dNC t g r f e2 e1 = t_dNC t' g r f e2 e1 /\
    t_dCC t g r f e2 e1 = t_dCC t' g r f e2 e1 /\
    t_dGR t e2 e1 = t_dGR t' e2 e1 /\
    t_sCC t g r f e1 = t_sCC t' g r f e1 /\ t_sNC t g r f e1 = t_sNC t' g r f e1 /\
    t_sGR t e1 = t_sGR t' e1 /\
    t_tall t r e2 e1 = t_tall t' r e2 e1 /\ t_tlep t r e2 e1 = t_tlep t' r e2 e1.

Lemma factor_nodes c t t' old old' flux r f e :
  shaped c -> c_dens c <> [] -> same_nodes c t t' -> (r < c_nrhos c)%nat -> (e < c_ne c)%nat ->
  factor c t (update_lengths c t old) flux r f e
  = factor c t' (update_lengths c t' old') flux r f e.
Proof.
  intros Hs Hd Hn Hr He.
  assert (N : forall r f e, (e < c_ne c)%nat ->
    len_sum c (fun g => t_sNC t g r f e) = len_sum c (fun g => t_sNC t' g r f e)).
  { intros r0 f0 e0 H. apply rsum_ext. intros g _.
    destruct (Hn g r0 f0 e0 e0 H H) as (_ & _ & _ & _ & -> & _). reflexivity. }
  assert (C : forall r f e, (e < c_ne c)%nat ->
    len_sum c (fun g => t_sCC t g r f e) = len_sum c (fun g => t_sCC t' g r f e)).
  { intros r0 f0 e0 H. apply rsum_ext. intros g _.
    destruct (Hn g r0 f0 e0 e0 H H) as (_ & _ & _ & -> & _). reflexivity. }
  assert (T : forall r et, (et < c_ne c)%nat ->
    tau_flux c t (update_lengths c t old) flux r et
    = tau_flux c t' (update_lengths c t' old') flux r et).
  { intros r0 et H. apply rsum_ext. intros en Hen.
    destruct (tau_skip flux en); [reflexivity|]. apply rsum_ext. intros g _.
    rewrite !s_CC_eq, C by (assumption || lia).
    destruct (Hn g r0 2%nat en et ltac:(lia) H) as (_ & -> & _). reflexivity. }
  unfold factor. f_equal; [f_equal|].
  - apply rsum_ext. intros e2 He2. apply rsum_ext. intros g _.
    rewrite !s_NC_eq, N by (assumption || lia).
    destruct (Hn g r f e2 e ltac:(lia) He) as (-> & _). reflexivity.
  - destruct (c_tau c); [|reflexivity]. destruct (Nat.eqb f 2).
    + apply rsum_ext. intros et Het. rewrite T by lia.
      destruct (Hn 0%nat r f et e ltac:(lia) He) as (_ & _ & _ & _ & _ & _ & -> & _). reflexivity.
    + apply rsum_ext. intros et Het. rewrite T by lia.
      destruct (Hn 0%nat (1 - r)%nat f et e ltac:(lia) He) as (_ & _ & _ & _ & _ & _ & _ & ->).
      reflexivity.
  - destruct (c_gr c && is_anti (c_nt c) r)%bool eqn:Eg; [|reflexivity].
    destruct Hs as (Hb & Hn1 & _). rewrite <- glashow_rho in Eg by assumption.
    apply andb_true_iff in Eg. destruct Eg as [Eg _].
    apply rsum_ext. intros e2 He2. rewrite !s_GR_eq by (assumption || lia).
    destruct (Hn 0%nat r f e2 e ltac:(lia) He) as (_ & _ & -> & _).
    destruct (Hn 0%nat r f e2 e2 ltac:(lia) ltac:(lia)) as (_ & _ & _ & _ & _ & -> & _).
    reflexivity.
Qed.

(** What sits in the padding of the tables, the padded size and the previous
    contents of all buffers do not matter at real nodes. *)
Theorem c37_padding_irrelevant dot proj st c t t' old old' fold fold' rne rne' r e k :
  shaped c -> c_dens c <> [] -> same_nodes c t t' ->
  (c_ne c <= rne)%nat -> (c_ne c <= rne')%nat -> (r < c_nrhos c)%nat -> (e < c_ne c)%nat ->
  term_noosc dot proj st c t old rne r e k = term_noosc dot proj st c t' old' rne' r e k /\
  term_osc dot proj st c t old fold r e k = term_osc dot proj st c t' old' fold' r e k.
Proof.
  intros Hs Hd Hn H1 H2 Hr He. unfold term_noosc, term_osc.
  rewrite !cache_noosc_eq, !interactions_osc_eq by assumption.
  split; f_equal; apply rsum_ext; intros f _; f_equal; apply factor_nodes; assumption.
Qed.

(** ** C38: with and without oscillations *)

(** The exact relation: the shortcut adds the sources once per neutrino type. *)
Theorem c38_relation_partial dot proj st c t old fold rne r e k :
  shaped c -> (c_ne c <= rne)%nat -> (r < c_nrhos c)%nat -> (e < c_ne c)%nat ->
  (forall r f e, (e < c_ne c)%nat -> proj r f e = proj r f 0%nat) ->
  term_noosc dot proj st c t old rne r e k
  = term_osc dot proj st c t old fold r e k
    + (if c_src c then (INR (c_nrhos c) - 1) *
         rsum 0 (c_numneu c) (fun i => c_ext c e r i * proj r i e k) else 0).
Proof.
  intros Hs Hrne Hr He Hp. unfold term_noosc, term_osc.
  rewrite cache_noosc_eq, interactions_osc_eq by assumption.
  assert (F : forall r f e, (e < c_ne c)%nat -> flux0 dot proj st r f e = fluxe dot proj st r f e).
  { intros r1 f1 e1 H1. unfold flux0, fluxe. rewrite (Hp r1 f1 e1) by assumption. reflexivity. }
  assert (E : forall f, factor c t (update_lengths c t old) (flux0 dot proj st) r f e
                      = factor c t (update_lengths c t old) (fluxe dot proj st) r f e).
  { intro f.
    assert (T : forall r et, tau_flux c t (update_lengths c t old) (flux0 dot proj st) r et
                  = tau_flux c t (update_lengths c t old) (fluxe dot proj st) r et).
    { intros r0 et. apply rsum_ext. intros en Hen. unfold tau_skip. rewrite !F by lia.
      destruct (rle _ 0 && rle _ 0)%bool; [reflexivity|]. reflexivity. }
    unfold factor. f_equal; [f_equal|].
    - apply rsum_ext. intros e2 He2. rewrite F by lia. reflexivity.
    - destruct (c_tau c); [|reflexivity].
      destruct (Nat.eqb f 2); apply rsum_ext; intros et _; rewrite T; reflexivity.
    - destruct (c_gr c && is_anti (c_nt c) r)%bool; [|reflexivity].
      apply rsum_ext. intros e2 He2. rewrite F by lia. reflexivity. }
  rewrite (rsum_ext 0 3 (fun f => factor c t (update_lengths c t old) (flux0 dot proj st) r f e
                                  * proj r f 0%nat k)
            (fun f => factor c t (update_lengths c t old) (fluxe dot proj st) r f e
                                  * proj r f e k))
    by (intros f _; rewrite E, (Hp r f e He); reflexivity).
  unfold src_vec. destruct (c_src c); lra.
Qed.

(** Hence they agree without sources, or with one neutrino type. *)
Theorem c38_modes_agree_partial dot proj st c t old fold rne r e k :
  shaped c -> (c_ne c <= rne)%nat -> (r < c_nrhos c)%nat -> (e < c_ne c)%nat ->
  (forall r f e, (e < c_ne c)%nat -> proj r f e = proj r f 0%nat) ->
  c_src c = false \/ c_nt c <> Both ->
  interactions_rho proj c true false (term_noosc dot proj st c t old rne)
    (update_osc dot proj st c t (update_lengths c t old) fold) r e k
  = interactions_rho proj c true true (term_noosc dot proj st c t old rne)
    (update_osc dot proj st c t (update_lengths c t old) fold) r e k.
Proof.
  intros Hs Hrne Hr He Hp Hc. unfold interactions_rho. cbn [negb andb].
  change (interactions_osc proj c _ r e k) with (term_osc dot proj st c t old fold r e k).
  rewrite (c38_relation_partial dot proj st c t old fold rne) by assumption.
  destruct Hs as (_ & Hn & _).
  destruct Hc as [-> | H]; [lra|]. rewrite (Hn H). cbn [INR]. destruct (c_src c); lra.
Qed.

(** A small medium for the examples: three nodes, unit steps, flavour
    projectors picking one component. *)
Definition ex_dot (p v : vec) : R := p 0%nat * v 0%nat + p 1%nat * v 1%nat + p 2%nat * v 2%nat.
Definition ex_proj (r f e : nat) : vec := fun k => if Nat.eqb k f then 1 else 0.
Definition ex_st (e r : nat) : vec := fun _ => 1.
Definition ex_t : itables :=
  MkT (fun _ _ _ _ _ => 1) (fun _ _ _ _ _ => 1) (fun _ _ => 1) (fun _ _ _ _ => 1)
      (fun _ _ _ _ => 1) (fun _ => 1) (fun _ _ _ => 1) (fun _ _ _ => 1).
Definition ex_c (t : nt) (nrhos : nat) (tau gr src : bool) (dens frac : list R) : iconf :=
  MkC t nrhos 3 3 tau gr src dens frac (1 / 2) (fun _ => 1) (fun _ _ _ => 1).
Definition ex_s : istate := MkS zero3 zero3 zero3 zero1.
Definition ex_f : ifactors := MkF zero3 zero2 zero2 zero1.

Example c38_example : shaped (ex_c Both 2 true true true [1] [1]) /\
  shaped (ex_c NuBar 1 false true true [1] [1]) /\
  (forall r f e, ex_proj r f e = ex_proj r f 0%nat).
Proof. unfold shaped, ex_c. cbn. repeat split; try congruence; lia. Qed.

(** What enters the evolution equation in each mode: nothing without
    interactions and sources; the emitted flux, each flavour along its own
    projector, with sources alone; with interactions the vectors prepared in
    that mode. *)
Theorem c38_gain_term dot proj st c t old fold rne osc r e k :
  shaped c ->
  let G := fun iint o => interactions_rho proj c iint o (term_noosc dot proj st c t old rne)
             (update_osc dot proj st c t (update_lengths c t old) fold) r e k in
  G false osc = (if c_src c then rsum 0 (c_numneu c) (fun i => c_ext c e r i * proj r i e k) else 0) /\
  G true false = term_noosc dot proj st c t old rne r e k /\
  G true true = term_osc dot proj st c t old fold r e k.
Proof.
  intros Hs G. destruct Hs as (_ & _ & _ & H3). unfold G, interactions_rho.
  cbn [negb andb]. repeat split.
  destruct (c_src c); cbn [negb]; [|reflexivity].
  apply sources_only_eq. lia.
Qed.

(** A source of 1, 2 and 3 in the three flavours. *)
Example c38_gain_example :
  let c := MkC Nu 1 3 3 false false true [1] [1] (1 / 2) (fun _ => 1) (fun _ _ i => INR (S i)) in
  shaped c /\
  interactions_rho ex_proj c false true (fun _ _ => vzero) ex_f 0 1 2%nat = 3.
Proof.
  intro c. split; [unfold shaped, c; cbn; repeat split; congruence || lia|].
  unfold interactions_rho, sources_only, c. cbn. unfold vadd, vscale, ex_proj. cbn. lra.
Qed.

(** With both types and sources the shortcut counts the sources twice. *)
Theorem c38_sources_twice_refuted :
  let c := ex_c Both 2 false false true [1] [1] in
  shaped c /\
  term_noosc ex_dot ex_proj ex_st c ex_t ex_s 4 0 2 0%nat = 2 /\
  term_osc ex_dot ex_proj ex_st c ex_t ex_s ex_f 0 2 0%nat = 1.
Proof.
  intro c. assert (Hs : shaped c) by (unfold shaped, c, ex_c; cbn; repeat split; congruence || lia).
  split; [exact Hs|].
  assert (O : term_osc ex_dot ex_proj ex_st c ex_t ex_s ex_f 0 2 0%nat = 1).
  { unfold term_osc. rewrite interactions_osc_eq by (exact Hs || cbn; lia).
    unfold factor, nc_source, src_vec, rsum, c, ex_c, ex_proj. cbn. lra. }
  split; [|exact O].
  rewrite (c38_relation_partial _ _ _ _ _ _ ex_f) by (exact Hs || reflexivity || cbn; lia).
  rewrite O. unfold c, ex_c, rsum, ex_proj. cbn. lra.
Qed.

(** If the projectors do depend on the energy (they keep the values of an
    earlier evolution when Set_IncludeOscillations(false) is called, 2828) the
    shortcut uses those of the first node for all energies. *)
Theorem c38_stale_projectors_refuted :
  let c := ex_c Nu 1 false false false [1] [1] in
  let proj := fun r f e => fun k => if Nat.eqb k (f + e) then 1 else 0 in
  let st := fun e r => fun k => if Nat.eqb k 0 then 1 else 0 in
  shaped c /\
  term_noosc ex_dot proj st c ex_t ex_s 4 0 0 0%nat = 2 /\
  term_osc ex_dot proj st c ex_t ex_s ex_f 0 0 0%nat = 0.
Proof.
  intros c proj st.
  assert (Hs : shaped c) by (unfold shaped, c, ex_c; cbn; repeat split; congruence || lia).
  split; [exact Hs|]. unfold term_noosc, term_osc.
  rewrite cache_noosc_eq, interactions_osc_eq by (exact Hs || cbn; lia).
  unfold factor, nc_source, rsum, c. cbn [ex_c c_ne c_dens c_tau c_gr c_src c_delE length Nat.sub
    seq map fold_right andb ex_t t_dNC].
  rewrite !s_NC_eq by discriminate.
  unfold len_sum, rsum, fr, flux0, fluxe, ex_dot, proj, st. cbn. lra.
Qed.

(** ** C39: only downwards *)

(** Two sets of densities that agree above node [e] give the same source at
    [e], in both modes. *)
Theorem c39_only_from_above dot proj st st' c t old fold rne r e k :
  shaped c -> (c_ne c <= rne)%nat -> (r < c_nrhos c)%nat -> (e < c_ne c)%nat ->
  (forall e2 r, (e < e2 < c_ne c)%nat -> st e2 r = st' e2 r) ->
  term_noosc dot proj st c t old rne r e k = term_noosc dot proj st' c t old rne r e k /\
  term_osc dot proj st c t old fold r e k = term_osc dot proj st' c t old fold r e k.
Proof.
  intros Hs Hrne Hr He H. unfold term_noosc, term_osc.
  rewrite !cache_noosc_eq, !interactions_osc_eq by assumption.
  assert (E : forall flux flux' s, (forall r f e2, (e < e2 < c_ne c)%nat -> flux r f e2 = flux' r f e2) ->
    forall f, factor c t s flux r f e = factor c t s flux' r f e).
  { intros flux flux' s Hf f.
    assert (T : forall r et, (e < et)%nat -> tau_flux c t s flux r et = tau_flux c t s flux' r et).
    { intros r0 et Het. apply rsum_ext. intros en Hen. unfold tau_skip.
      rewrite !Hf by lia. reflexivity. }
    unfold factor. f_equal; [f_equal|].
    - apply rsum_ext. intros e2 He2. rewrite Hf by lia. reflexivity.
    - destruct (c_tau c); [|reflexivity].
      destruct (Nat.eqb f 2); apply rsum_ext; intros et Het; rewrite T by lia; reflexivity.
    - destruct (c_gr c && is_anti (c_nt c) r)%bool; [|reflexivity].
      apply rsum_ext. intros e2 He2. rewrite Hf by lia. reflexivity. }
  split; f_equal; apply rsum_ext; intros f _; f_equal; apply E;
    intros r0 f0 e2 He2; [unfold flux0|unfold fluxe]; rewrite H by lia; reflexivity.
Qed.

(** The highest node receives nothing but external sources. *)
Theorem c39_top_receives_none dot proj st c t old fold rne r k :
  shaped c -> (c_ne c <= rne)%nat -> (r < c_nrhos c)%nat -> (1 <= c_ne c)%nat ->
  c_src c = false ->
  term_noosc dot proj st c t old rne r (c_ne c - 1) k = 0 /\
  term_osc dot proj st c t old fold r (c_ne c - 1) k = 0.
Proof.
  intros Hs Hrne Hr Hne Hsrc. unfold term_noosc, term_osc.
  rewrite cache_noosc_eq, interactions_osc_eq by (assumption || lia). rewrite Hsrc.
  assert (E : forall flux s f, factor c t s flux r f (c_ne c - 1) = 0).
  { intros flux s f. unfold factor, nc_source, had_source, lep_source, gr_source.
    rewrite !(rsum_nil (S (c_ne c - 1))) by lia.
    destruct (c_tau c), (Nat.eqb f 2), (c_gr c && is_anti (c_nt c) r)%bool; lra. }
  split; rewrite rsum_zero; try lra; intros f _; rewrite E; lra.
Qed.

(** The source below is not always zero: neutral current from nodes 1 and 2,
    taus from node 2, Glashow from 1 and 2. *)
Example c39_example :
  let c := ex_c Both 2 true true false [1] [1] in
  shaped c /\ term_osc ex_dot ex_proj ex_st c ex_t ex_s ex_f 1 0 0%nat = 4.
Proof.
  intro c. assert (Hs : shaped c) by (unfold shaped, c, ex_c; cbn; repeat split; congruence || lia).
  split; [exact Hs|]. unfold term_osc.
  rewrite interactions_osc_eq by (exact Hs || cbn; lia).
  unfold factor, nc_source, had_source, lep_source, gr_source, tau_flux, tau_skip, rsum, c.
  cbn [ex_c c_ne c_dens c_tau c_gr c_src c_nt c_delE length Nat.sub Nat.eqb
    seq map fold_right andb orb is_anti nt_eqb ex_t t_dNC t_dCC t_dGR t_tall t_tlep].
  rewrite !s_NC_eq, !s_CC_eq by discriminate.
  rewrite !s_GR_eq by (reflexivity || cbn; lia).
  assert (P : forall r f e, (f < 3)%nat -> fluxe ex_dot ex_proj ex_st r f e = 1).
  { intros r f e Hf. unfold fluxe, ex_dot, ex_proj, ex_st.
    destruct f as [|[|[|f]]]; [| | |lia]; cbn; lra. }
  rewrite !P by lia. rewrite (rle_false 1 0) by lra.
  unfold len_sum, rsum, fr, num_e, ex_proj. cbn. lra.
Qed.

(** ** C40: no negative flux *)

Record nonneg_tables (t : itables) : Prop := NN {
  nn_dNC : forall g r f e2 e1, 0 <= t_dNC t g r f e2 e1;
  nn_dCC : forall g r f e2 e1, 0 <= t_dCC t g r f e2 e1;
  nn_dGR : forall e2 e1, 0 <= t_dGR t e2 e1;
  nn_sCC : forall g r f e, 0 <= t_sCC t g r f e;
  nn_sNC : forall g r f e, 0 <= t_sNC t g r f e;
  nn_sGR : forall e, 0 <= t_sGR t e;
  nn_tall : forall r e2 e1, 0 <= t_tall t r e2 e1;
  nn_tlep : forall r e2 e1, 0 <= t_tlep t r e2 e1 }.

Definition nonneg_conf (c : iconf) : Prop :=
  (forall g, 0 <= nth g (c_dens c) 0) /\ (forall g, 0 <= nth g (c_frac c) 0) /\
  0 <= c_ye c /\ (forall e, 0 <= c_delE c e).

Lemma pos3 a b d : 0 <= a -> 0 <= b -> 0 <= d -> 0 <= a * b * d.
Proof. intros. apply Rmult_le_pos; [apply Rmult_le_pos|]; assumption. Qed.

Lemma factor_nonneg c t old flux r f e :
  shaped c -> c_dens c <> [] -> nonneg_tables t -> nonneg_conf c -> (r < c_nrhos c)%nat ->
  (f < 3)%nat ->
  (forall r f e, (r < c_nrhos c)%nat -> (f < 3)%nat -> (e < c_ne c)%nat -> 0 <= flux r f e) ->
  0 <= factor c t (update_lengths c t old) flux r f e.
Proof.
  intros Hs Hd [H1 H2 H3 H4 H5 H6 H7 H8] (D & Fr & Y & W) Hr Hf Hfl.
  assert (L : forall sigma, (forall g, 0 <= sigma g) -> 0 <= len_sum c sigma).
  { intros sigma Hsg. apply rsum_nonneg. intros g _. apply Rmult_le_pos; auto. }
  assert (T : c_tau c = true -> forall r et, (r < 2)%nat ->
     0 <= tau_flux c t (update_lengths c t old) flux r et).
  { intros Ht r0 et Hr0. destruct Hs as (Hb & _ & Htb & _).
    apply rsum_nonneg. intros en Hen. destruct (tau_skip flux en); [lra|].
    apply rsum_nonneg. intros g _. rewrite s_CC_eq by exact Hd.
    apply Rmult_le_pos; [|apply W]. apply Rmult_le_pos; [|apply H2].
    apply Rmult_le_pos; [|apply Fr]. apply pos3; [|apply L; intro; apply H4|apply W].
    apply Hfl; [rewrite Hb by auto; lia|lia|lia]. }
  pose proof (shaped_rho2 c r Hs Hr) as Hr2.
  unfold factor. apply Rplus_le_le_0_compat; [apply Rplus_le_le_0_compat|].
  - apply rsum_nonneg. intros e2 He2. apply rsum_nonneg. intros g _.
    rewrite s_NC_eq by exact Hd.
    apply pos3; [apply Fr| |apply H1].
    apply Rmult_le_pos; [apply Hfl; lia|]. apply Rmult_le_pos; [apply L; intro; apply H5|apply W].
  - destruct (c_tau c); [|lra].
    destruct (Nat.eqb f 2); apply rsum_nonneg; intros et _; apply Rmult_le_pos;
      try (apply T; (reflexivity || lia)); [apply H7|apply H8].
  - destruct (c_gr c && is_anti (c_nt c) r)%bool eqn:Eg; [|lra].
    destruct Hs as (Hb & Hn & _). rewrite <- glashow_rho in Eg by assumption.
    apply andb_true_iff in Eg. destruct Eg as [Eg _].
    apply rsum_nonneg. intros e2 He2. rewrite s_GR_eq by (exact Eg || lia).
    apply Rmult_le_pos; [|apply H3]. apply pos3; [apply Hfl; lia| |apply W].
    apply Rmult_le_pos; [apply H6|]. unfold num_e.
    destruct (Nat.eqb _ 1); [apply Rmult_le_pos; auto|auto].
Qed.

(** Non-negative fluxes and tables: the source is a combination of flavour
    projectors with non-negative weights, in both modes. *)
Theorem c40_nonnegative dot proj st c t old fold rne r e :
  shaped c -> c_dens c <> [] -> nonneg_tables t -> nonneg_conf c -> c_src c = false ->
  (c_ne c <= rne)%nat -> (r < c_nrhos c)%nat -> (e < c_ne c)%nat ->
  (forall r f e e', (r < c_nrhos c)%nat -> (f < 3)%nat -> (e < c_ne c)%nat ->
     e' = 0%nat \/ e' = e -> 0 <= dot (proj r f e') (st e r)) ->
  exists we wm wt we' wm' wt',
    0 <= we /\ 0 <= wm /\ 0 <= wt /\ 0 <= we' /\ 0 <= wm' /\ 0 <= wt' /\
    (forall k, term_noosc dot proj st c t old rne r e k
       = we * proj r 0%nat 0%nat k + wm * proj r 1%nat 0%nat k + wt * proj r 2%nat 0%nat k) /\
    (forall k, term_osc dot proj st c t old fold r e k
       = we' * proj r 0%nat e k + wm' * proj r 1%nat e k + wt' * proj r 2%nat e k).
Proof.
  intros Hs Hd Ht Hc Hsrc Hrne Hr He Hfl.
  set (s := update_lengths c t old).
  exists (factor c t s (flux0 dot proj st) r 0 e), (factor c t s (flux0 dot proj st) r 1 e),
         (factor c t s (flux0 dot proj st) r 2 e), (factor c t s (fluxe dot proj st) r 0 e),
         (factor c t s (fluxe dot proj st) r 1 e), (factor c t s (fluxe dot proj st) r 2 e).
  assert (A : forall f, (f < 3)%nat -> 0 <= factor c t s (flux0 dot proj st) r f e).
  { intros f Hf. apply factor_nonneg; try assumption. intros. unfold flux0. apply Hfl; auto. }
  assert (B : forall f, (f < 3)%nat -> 0 <= factor c t s (fluxe dot proj st) r f e).
  { intros f Hf. apply factor_nonneg; try assumption. intros. unfold fluxe. apply Hfl; auto. }
  repeat split; try (apply A; lia); try (apply B; lia).
  - intro k. unfold term_noosc. fold s. rewrite cache_noosc_eq by assumption. rewrite Hsrc.
    rewrite !(rsum_first _ 3) by lia. rewrite rsum_nil by lia. lra.
  - intro k. unfold term_osc. fold s. rewrite interactions_osc_eq by assumption. rewrite Hsrc.
    rewrite !(rsum_first _ 3) by lia. rewrite rsum_nil by lia. lra.
Qed.

Lemma factor_scale c t s flux flux' a r f e :
  0 <= a -> (forall r f e, flux' r f e = a * flux r f e) ->
  factor c t s flux' r f e = a * factor c t s flux r f e.
Proof.
  intros Ha H.
  assert (T : forall r et, tau_flux c t s flux' r et = a * tau_flux c t s flux r et).
  { intros r0 et. unfold tau_flux. rewrite <- rsum_scal. apply rsum_ext. intros en _.
    unfold tau_skip. rewrite !H.
    destruct (Req_dec a 0) as [->|Hn].
    - rewrite !Rmult_0_l. rewrite (rle_true 0 0) by lra. reflexivity.
    - assert (R1 : forall x, rle (a * x) 0 = rle x 0).
      { intro x. destruct (Rle_dec x 0) as [E|E].
        - rewrite (rle_true x 0 E). apply rle_true. nra.
        - rewrite (rle_false x 0) by lra. apply rle_false. nra. }
      rewrite !R1. destruct (rle _ 0 && rle _ 0)%bool; [lra|].
      rewrite <- rsum_scal. apply rsum_ext. intros g _. ring. }
  unfold factor. rewrite !Rmult_plus_distr_l. f_equal; [f_equal|].
  - unfold nc_source. rewrite <- rsum_scal. apply rsum_ext. intros e2 _.
    rewrite <- rsum_scal. apply rsum_ext. intros g _. rewrite H. ring.
  - destruct (c_tau c); [|lra]. unfold had_source, lep_source.
    destruct (Nat.eqb f 2); rewrite <- rsum_scal; apply rsum_ext; intros et _; rewrite T; ring.
  - destruct (c_gr c && is_anti (c_nt c) r)%bool; [|lra]. unfold gr_source.
    rewrite <- rsum_scal. apply rsum_ext. intros e2 _. rewrite H. ring.
Qed.

(** Scaling all densities scales the source. *)
Theorem c40_scaling dot proj st st' a c t old fold rne r e k :
  shaped c -> c_src c = false -> 0 <= a ->
  (c_ne c <= rne)%nat -> (r < c_nrhos c)%nat -> (e < c_ne c)%nat ->
  (forall p e r, dot p (st' e r) = a * dot p (st e r)) ->
  term_noosc dot proj st' c t old rne r e k = a * term_noosc dot proj st c t old rne r e k /\
  term_osc dot proj st' c t old fold r e k = a * term_osc dot proj st c t old fold r e k.
Proof.
  intros Hs Hsrc Ha Hrne Hr He H. unfold term_noosc, term_osc.
  rewrite !cache_noosc_eq, !interactions_osc_eq by assumption. rewrite Hsrc.
  rewrite !Rplus_0_r, <- !rsum_scal.
  split; apply rsum_ext; intros f _.
  - rewrite (factor_scale c t _ (flux0 dot proj st) _ a r f e Ha); [ring|].
    intros. unfold flux0. apply H.
  - rewrite (factor_scale c t _ (fluxe dot proj st) _ a r f e Ha); [ring|].
    intros. unfold fluxe. apply H.
Qed.

Example c40_example : nonneg_tables ex_t /\ nonneg_conf (ex_c Both 2 true true false [1] [1]) /\
  (forall r f e e', (f < 3)%nat -> 0 <= ex_dot (ex_proj r f e') (ex_st e r)).
Proof.
  split; [constructor; intros; cbn; lra|]. split.
  - unfold nonneg_conf, ex_c. cbn [c_dens c_frac c_ye c_delE].
    repeat split; try lra; intro g; try lra; destruct g as [|[|g]]; cbn; lra.
  - intros r f e e' Hf. unfold ex_dot, ex_proj, ex_st.
    destruct f as [|[|[|f]]]; [| | |lia]; cbn; lra.
Qed.

(** ** C41: weighting of targets *)

(** The source from each target: density times differential cross section
    (total cross section times spectrum) times flux times energy step. *)
Definition nc_expected (c : iconf) (t : itables) (flux : nat -> nat -> nat -> R) (r f e : nat) : R :=
  rsum (S e) (c_ne c) (fun e2 => flux r f e2 * c_delE c (e2 - 1) *
    rsum 0 (length (c_dens c)) (fun g =>
      nth g (c_dens c) 0 * (t_sNC t g r f e2 * t_dNC t g r f e2 e))).

(** Exact when all targets have the same total cross section, in particular for
    one kind of target. *)
Theorem c41_equal_targets_partial dot proj st c t old fold r e k :
  shaped c -> c_dens c <> [] -> (r < c_nrhos c)%nat -> (e < c_ne c)%nat ->
  c_tau c = false -> c_gr c = false -> c_src c = false ->
  (forall g f e2, (g < length (c_dens c))%nat -> t_sNC t g r f e2 = t_sNC t 0 r f e2) ->
  (forall g, (g < length (c_dens c))%nat ->
     nth g (c_frac c) 0 * rsum 0 (length (c_dens c)) (fun g => nth g (c_dens c) 0)
     = nth g (c_dens c) 0) ->
  term_osc dot proj st c t old fold r e k
  = rsum 0 3 (fun f => nc_expected c t (fun r f e => dot (proj r f e) (st e r)) r f e
                       * proj r f e k).
Proof.
  intros Hs Hd Hr He Ht Hg Hsrc Hsig Hfr. unfold term_osc.
  rewrite interactions_osc_eq by assumption. rewrite Hsrc, Rplus_0_r.
  apply rsum_ext. intros f _. f_equal. unfold factor. rewrite Ht, Hg. cbn [andb].
  rewrite !Rplus_0_r. unfold nc_source, nc_expected. apply rsum_ext. intros e2 _.
  rewrite <- rsum_scal. apply rsum_ext. intros g Hgl.
  rewrite s_NC_eq by exact Hd. unfold fr, fluxe.
  replace (len_sum c (fun g => t_sNC t g r f e2))
    with (t_sNC t 0 r f e2 * rsum 0 (length (c_dens c)) (fun g => nth g (c_dens c) 0)).
  2:{ unfold len_sum. rewrite <- rsum_scal. apply rsum_ext. intros g' Hg'.
      rewrite (Hsig g') by lia. reflexivity. }
  rewrite (Hsig g) by lia. rewrite <- (Hfr g) by lia. ring.
Qed.

Example c41_example :
  let c := ex_c Nu 1 false false false [1; 1] [1 / 2; 1 / 2] in
  shaped c /\ (forall g f e2, t_sNC ex_t g 0 f e2 = t_sNC ex_t 0 0 f e2) /\
  (forall g, (g < 2)%nat ->
     nth g (c_frac c) 0 * rsum 0 2 (fun g => nth g (c_dens c) 0) = nth g (c_dens c) 0).
Proof.
  intro c. unfold shaped, c, ex_c. cbn [c_nt c_nrhos c_tau c_numneu c_frac c_dens].
  repeat split; try congruence; try lia.
  intros g Hg. unfold rsum. destruct g as [|[|g]]; [| |lia]; cbn; lra.
Qed.

(** For a mixture whose members differ the source is wrong: equal numbers of
    protons (total 1, all the outgoing neutrinos in this node) and neutrons
    (total 3, none) give twice what the protons produce. *)
Theorem c41_mixture_refuted :
  let t := MkT (fun g _ _ _ _ => match g with O => 1 | _ => 0 end) (fun _ _ _ _ _ => 0)
      (fun _ _ => 0) (fun _ _ _ _ => 0)
      (fun g _ _ _ => match g with O => 1 | _ => 3 end) (fun _ => 0) (fun _ _ _ => 0)
      (fun _ _ _ => 0) in
  let c := ex_c Nu 1 false false false (target_densities ex_k false 2 (1 / 2))
             (target_fractions 2 (1 / 2)) in
  shaped c /\
  term_osc ex_dot ex_proj ex_st c t ex_s ex_f 0 1 0%nat = 2 /\
  nc_expected c t (fun r f e => ex_dot (ex_proj r f e) (ex_st e r)) 0 0 1 = 1.
Proof.
  rewrite (proj2 c35_example). intros t c.
  assert (Hs : shaped c) by (unfold shaped, c, ex_c; cbn; repeat split; congruence || lia).
  split; [exact Hs|]. split.
  - unfold term_osc. rewrite interactions_osc_eq by (exact Hs || cbn; lia).
    unfold factor, nc_source, rsum, c. cbn [ex_c c_ne c_dens c_tau c_gr c_src c_delE length Nat.sub
      seq map fold_right andb].
    rewrite !s_NC_eq by discriminate.
    unfold len_sum, rsum, fr, fluxe, ex_dot, ex_proj, ex_st, t. cbn. lra.
  - unfold nc_expected, rsum, c, t, ex_dot, ex_proj, ex_st. cbn. lra.
Qed.

(** The total rate of neutral-current interactions is right for any mixture:
    with normalised spectra all the neutrinos that interact come out again.
    [w] are the widths by which outgoing neutrinos are counted. *)
Theorem c41_number_conserved_partial c t old flux (w : nat -> R) r f e2 :
  c_dens c <> [] -> (0 < e2 < c_ne c)%nat ->
  rsum 0 (length (c_dens c)) (fun g => fr c g) = 1 ->
  (forall g, (g < length (c_dens c))%nat ->
     rsum 0 e2 (fun e1 => t_dNC t g r f e2 e1 * w e1) = 1) ->
  let s := update_lengths c t old in
  rsum 0 e2 (fun e1 => w e1 *
    rsum 0 (length (c_dens c)) (fun g =>
      fr c g * (flux r f e2 * (s_NC s r f e2 * c_delE c (e2 - 1))) * t_dNC t g r f e2 e1))
  = flux r f e2 * c_delE c (e2 - 1) *
    rsum 0 (length (c_dens c)) (fun g => t_sNC t g r f e2 * nth g (c_dens c) 0).
Proof.
  intros Hd He Hf Hn s. unfold s. rewrite s_NC_eq by exact Hd. fold (len_sum c (fun g => t_sNC t g r f e2)).
  set (A := flux r f e2 * (len_sum c (fun g => t_sNC t g r f e2) * c_delE c (e2 - 1))).
  assert (X : forall n m (h : nat -> nat -> R),
    rsum 0 n (fun i => rsum 0 m (fun j => h i j)) = rsum 0 m (fun j => rsum 0 n (fun i => h i j))).
  { intros n m h. induction n as [|n IH].
    - rewrite (rsum_nil 0 0) by lia. symmetry. apply rsum_zero. intros. apply rsum_nil. lia.
    - rewrite (rsum_split 0 n) by lia. rewrite IH. rewrite (rsum_first n) by lia.
      rewrite (rsum_nil (S n) (S n)) by lia. rewrite Rplus_0_r, <- rsum_plus. apply rsum_ext. intros j _.
      rewrite (rsum_split 0 n (S n)) by lia. rewrite (rsum_first n) by lia.
      rewrite (rsum_nil (S n)) by lia. lra. }
  rewrite (rsum_ext 0 e2 _ (fun e1 => rsum 0 (length (c_dens c)) (fun g =>
     fr c g * A * (t_dNC t g r f e2 e1 * w e1)))).
  2:{ intros e1 _. rewrite <- rsum_scal. apply rsum_ext. intros g _. ring. }
  rewrite X.
  rewrite (rsum_ext 0 (length (c_dens c)) _ (fun g => A * fr c g)).
  2:{ intros g Hg. rewrite rsum_scal, Hn by lia. ring. }
  rewrite (rsum_scal 0 (length (c_dens c)) (fun g => fr c g) A), Hf. unfold A, len_sum. ring.
Qed.

(** ** C65: absorption *)

(** The attenuation of each flavour: half of the sum over targets of density
    times (neutral plus charged) total cross section, and for electron
    antineutrinos the electrons times the Glashow cross section. *)
Theorem c65_absorption proj c t old r e k :
  shaped c -> c_dens c <> [] -> (r < c_nrhos c)%nat -> (e < c_ne c)%nat ->
  let electrons := if Nat.eqb (length (c_dens c)) 1 then c_ye c * nth 0 (c_dens c) 0
                   else nth 0 (c_dens c) 0 in
  gamma_rho proj (update_lengths c t old) e r k
  = rsum 0 3 (fun f =>
      1 / 2 * (rsum 0 (length (c_dens c)) (fun g =>
                 nth g (c_dens c) 0 * (t_sNC t g r f e + t_sCC t g r f e))
               + (if c_gr c && is_anti (c_nt c) r && Nat.eqb f 0
                  then electrons * t_sGR t e else 0))
      * proj r f e k).
Proof.
  intros Hs Hd Hr He electrons. pose proof Hs as (Hb & Hn & _).
  unfold gamma_rho, vadd, vscale. rewrite !s_INT_eq by assumption.
  rewrite !andb_assoc, <- !glashow_rho by assumption.
  rewrite !(rsum_first _ 3) by lia. rewrite (rsum_nil 3 3) by lia.
  assert (L : forall f, len_sum c (fun g => t_sNC t g r f e) + len_sum c (fun g => t_sCC t g r f e)
    = rsum 0 (length (c_dens c)) (fun g => nth g (c_dens c) 0 * (t_sNC t g r f e + t_sCC t g r f e))).
  { intro f. unfold len_sum. rewrite <- rsum_plus. apply rsum_ext. intros; ring. }
  rewrite !L. unfold num_e, electrons.
  destruct (glashow_on c && Nat.eqb r (anti_rho c))%bool; cbn [andb Nat.eqb];
    destruct (Nat.eqb (length (c_dens c)) 1); lra.
Qed.

Example c65_example :
  let c := ex_c NuBar 1 false true false [2] [1] in
  shaped c /\ gamma_rho ex_proj (update_lengths c ex_t ex_s) 0 0 0%nat = 5 / 2 /\
  gamma_rho ex_proj (update_lengths c ex_t ex_s) 0 0 1%nat = 2.
Proof.
  intro c. assert (Hs : shaped c) by (unfold shaped, c, ex_c; cbn; repeat split; congruence || lia).
  split; [exact Hs|].
  rewrite !c65_absorption by (exact Hs || discriminate || cbn; lia).
  unfold rsum, c, ex_proj. cbn. lra.
Qed.

(** ** C42: matter potential *)

(** The potential felt by flavour [f]: the coefficient of its own projector. *)
Definition potential (k : consts) (t : nt) (irho : nat) (rho ye : R) (f : nat) : R :=
  HI k t irho rho ye false (fun i => fun j => if Nat.eqb j i then 1 else 0) vzero f.

Theorem c42_composition k rho ye :
  1 / 10 ^ 10 <= ye -> forall irho,
  let V := potential k Nu irho rho ye in
  let Vb := potential k NuBar irho rho ye in
  (forall f, Vb f = - V f) /\                              (* antineutrinos *)
  (forall f, potential k Both 0 rho ye f = V f /\ potential k Both 1 rho ye f = Vb f) /\
  V 1%nat = - (k_HI k * rho * (1 - ye)) / 2 /\             (* neutrons *)
  V 2%nat = V 1%nat /\
  V 0%nat - V 1%nat = k_HI k * rho * ye /\                 (* electrons *)
  (forall f, (3 <= f)%nat -> V f = 0) /\                   (* sterile *)
  (rho = 0 -> forall f, V f = 0).                          (* vacuum *)
Proof.
  intros Hy irho. cbv zeta. unfold potential, HI, hi_coeffs, is_anti. cbn [nt_eqb andb orb Nat.eqb].
  rewrite (rlt_false ye (1 / 10 ^ 10)) by lra.
  assert (Hy0 : ye <> 0) by lra.
  unfold vadd, vscale, vzero.
  repeat split.
  - intro f. destruct (Nat.eqb f 0), (Nat.eqb f 1), (Nat.eqb f 2); cbn; field; exact Hy0.
  - cbn. field. exact Hy0.
  - cbn. field. exact Hy0.
  - cbn. field. exact Hy0.
  - intros f Hf. rewrite !eqb_no by lia. ring.
  - intros -> f. destruct (Nat.eqb f 0), (Nat.eqb f 1), (Nat.eqb f 2); cbn; field; exact Hy0.
Qed.

Theorem c42_any_fraction k rho ye irho f :
  potential k NuBar irho rho ye f = - potential k Nu irho rho ye f /\
  ((3 <= f)%nat -> potential k Nu irho rho ye f = 0) /\
  potential k Nu irho rho ye 0 - potential k Nu irho rho ye 1 = k_HI k * rho * ye.
Proof.
  unfold potential, HI, hi_coeffs, is_anti, vadd, vscale. cbn [nt_eqb andb orb].
  repeat split.
  - destruct (Nat.eqb f 0), (Nat.eqb f 1), (Nat.eqb f 2); cbn; ring.
  - intro Hf. rewrite !eqb_no by lia. ring.
  - cbn. ring.
Qed.

(** HI only uses the three active projectors, in any basis rotation. *)
Theorem c42_only_active k t irho rho ye b p p' h j :
  (forall i, (i < 3)%nat -> p i j = p' i j) ->
  HI k t irho rho ye b p h j = HI k t irho rho ye b p' h j.
Proof.
  intro H. unfold HI. destruct (hi_coeffs k t irho rho ye) as [a d].
  destruct b; unfold vadd, vscale; rewrite !H by lia; reflexivity.
Qed.

Example c42_example :
  potential ex_k Nu 0 2 (1 / 2) 0 = 1 / 2 /\ potential ex_k Nu 0 2 (1 / 2) 1 = - (1 / 2) /\
  potential ex_k Nu 0 2 (1 / 2) 3 = 0.
Proof.
  destruct (c42_composition ex_k 2 (1 / 2) ltac:(lra) 0%nat) as (_ & _ & E1 & _ & E2 & E3 & _).
  cbn [ex_k k_HI] in *. rewrite (E3 3%nat) by lia. lra.
Qed.

(** Below 1e-10 the neutral-current term changes sign and doubles, so the
    potential is not continuous there, and is wrong for pure neutron matter. *)
Theorem c42_neutron_matter_refuted k rho : good_consts k -> 0 < rho ->
  potential k Nu 0 rho 0 1 = k_HI k * rho /\
  (forall ye, 1 / 10 ^ 10 <= ye <= 1 -> potential k Nu 0 rho ye 1 <= 0).
Proof.
  intros (_ & _ & _ & _ & _ & Hk) Hr. split.
  - unfold potential, HI, hi_coeffs, is_anti, vadd, vscale. cbn [nt_eqb andb orb Nat.eqb].
    rewrite (rlt_true 0 (1 / 10 ^ 10)) by lra. ring.
  - intros ye Hy. destruct (c42_composition k rho ye ltac:(lra) 0%nat) as (_ & _ & -> & _).
    assert (0 <= k_HI k * rho * (1 - ye)) by (apply Rmult_le_pos; [apply Rmult_le_pos; lra|lra]).
    lra.
Qed.

Theorem c42_continuity_refuted k rho : good_consts k -> 0 < rho ->
  ~ continuity_pt (fun ye => potential k Nu 0 rho ye 1) (1 / 10 ^ 10).
Proof.
  intros Hk Hr C. pose proof Hk as (_ & _ & _ & _ & _ & HH).
  set (K := k_HI k * rho). assert (HK : 0 < K) by (apply Rmult_lt_0_compat; lra).
  destruct (C K HK) as (d & Hd & Hc).
  set (y0 := 1 / 10 ^ 10) in *. assert (Hy0 : 0 < y0) by (unfold y0; lra).
  set (h := Rmin d y0 / 2).
  assert (Hh : 0 < h) by (unfold h; apply Rmin_case; lra).
  assert (Hhd : h < d) by (unfold h; pose proof (Rmin_l d y0); lra).
  assert (V0 : potential k Nu 0 rho y0 1 <= 0).
  { apply (c42_neutron_matter_refuted k rho Hk Hr). unfold y0. lra. }
  assert (V1 : potential k Nu 0 rho (y0 - h) 1 = K).
  { unfold potential, HI, hi_coeffs, is_anti, vadd, vscale. cbn [nt_eqb andb orb Nat.eqb].
    fold y0. rewrite (rlt_true (y0 - h) y0) by lra. unfold K. ring. }
  assert (L : Rabs (potential k Nu 0 rho (y0 - h) 1 - potential k Nu 0 rho y0 1) < K).
  { apply Hc. split; [split; [exact I|lra]|]. change (Rabs (y0 - h - y0) < d).
    replace (y0 - h - y0) with (- h) by ring. rewrite Rabs_Ropp, Rabs_right by lra. exact Hhd. }
  rewrite V1 in L. rewrite Rabs_right in L by lra. lra.
Qed.

(** GetHamiltonian in the mass basis: HI already contains H0_array (1609:
    H0 at the node's energy), so the vacuum part is there twice. *)
Theorem c42_hamiltonian_mass_basis_refuted k t irho rho ye p h j :
  get_hamiltonian h (HI k t irho rho ye true p h) j
  = 2 * h j + HI k t irho rho ye false p h j.
Proof.
  unfold get_hamiltonian, HI. destruct (hi_coeffs k t irho rho ye) as [a d].
  unfold vadd, vscale. ring.
Qed.

Print Assumptions c35_nucleons.
Print Assumptions c36_layout.
Print Assumptions c37_least_multiple.
Print Assumptions c37_padding_irrelevant.
Print Assumptions c38_relation_partial.
Print Assumptions c39_only_from_above.
Print Assumptions c40_nonnegative.
Print Assumptions c40_scaling.
Print Assumptions c41_equal_targets_partial.
Print Assumptions c65_absorption.
Print Assumptions c42_composition.
Print Assumptions c42_continuity_refuted.
