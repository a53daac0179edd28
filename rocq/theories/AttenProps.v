(** C103: the attenuation of a flavour in matter, from the cross-section
    tables: positive, and between the densities times bounds of the cross
    sections.

    The tables made by InitializeInteractions (src/nuSQuIDS.cpp:991-1194,
    XsTabModel with the library of DisTabModel) are the ones which
    UpdateInteractions and GammaRho (nuSQuIDS.cpp:586-653 and 363-372,
    IntModel) read. *)
From Coq Require Import Reals ZArith List Arith Bool Lia Lra Psatz Classical_Prop.
From Verif Require Import Err TauModel XsModel IntModel IntProofs IntProps DisTabModel DisTabProofs DisTabProps.
From Verif Require XsTabModel XsTabProps.
Import ListNotations.
Open Scope R_scope.

(** what is stored is what is read *)
Definition reads (s : XsTabModel.store) (t : itables) (nt : XsTabModel.nutype) (numneu ne : nat) : Prop :=
  forall g r f e v, (g < 2)%nat -> (r < XsTabModel.nrhos nt)%nat -> (f < numneu)%nat -> (e < ne)%nat ->
  (s (XsTabModel.SCC g r f e) = Some (XsTabModel.Num v) -> t_sCC t g r f e = v) /\
  (s (XsTabModel.SNC g r f e) = Some (XsTabModel.Num v) -> t_sNC t g r f e = v).
(** the same neutrinos, energies and flavours *)
Definition same_setting (c : iconf) (nt : XsTabModel.nutype) (numneu ne : nat) : Prop :=
  c_nt c = match nt with XsTabModel.Neutrino => IntModel.Nu | XsTabModel.Antineutrino => IntModel.NuBar | XsTabModel.Both => IntModel.Both end /\
  c_nrhos c = XsTabModel.nrhos nt /\ c_numneu c = numneu /\ c_ne c = ne /\ (3 <= numneu)%nat /\ (c_tau c = true -> nt = XsTabModel.Both).

Theorem c103_attenuation : forall GeV tiny, 0 < GeV -> 0 < tiny ->
  forall Xp Xn other tau_all tau_lep cm2 cm2GeV GeVm1 nt numneu ne E glashow odd fuel s l s',
  XsTabModel.make (dis_lib GeV tiny fuel Xp Xn other) tau_all tau_lep cm2 cm2GeV GeVm1 nt numneu ne E glashow odd s = Ok (l, s') ->
  tabulated Xp -> tabulated Xn -> grid ne E (x_Emax Xp) -> grid ne E (x_Emax Xn) -> 0 < cm2 ->
  forall c t old, same_setting c nt numneu ne -> reads s' t nt numneu ne ->
  (* not negative densities of protons and neutrons, not both zero *)
  forall dp dn, c_dens c = [dp; dn] -> 0 <= dp -> 0 <= dn -> 0 < dp + dn ->
  forall r a e, XsTabProps.particle nt r a -> (e < ne)%nat ->
  forall f g pt, nth_error [electron; muon; tau] f = Some g -> meant_particle a pt ->
  (* the component of flavour [f] *)
  forall proj k, (forall f', (f' < 3)%nat -> proj r f' e k = if Nat.eqb f' f then 1 else 0) ->
  let attenuation := gamma_rho proj (update_lengths c t old) e r k in
  let resonance := if c_gr c && a && Nat.eqb f 0 then dp * t_sGR t e / 2 else 0 in
  ((c_gr c = true -> 0 <= t_sGR t e) -> 0 < attenuation) /\
  (e = 0%nat -> forall pc pn nc nn,
     dis_total GeV tiny Xp (E 0%nat) g pt CC = Ok pc -> dis_total GeV tiny Xp (E 0%nat) g pt NC = Ok pn ->
     dis_total GeV tiny Xn (E 0%nat) g pt CC = Ok nc -> dis_total GeV tiny Xn (E 0%nat) g pt NC = Ok nn ->
     attenuation = cm2 / 2 * (dp * (pc + pn) + dn * (nc + nn)) + resonance) /\
  forall b lo hi, e = S b -> (forall n i, 0 <= lo n i) ->
  (forall n X i x u, nth_error [Xp; Xn] n = Some X -> i = CC \/ i = NC -> E b <= x <= E e -> dis_total GeV tiny X x g pt i = Ok u -> lo n i <= u <= hi n i) ->
  (1 - / 10 ^ 15) * (cm2 / 2 * (dp * (lo 0%nat CC + lo 0%nat NC) + dn * (lo 1%nat CC + lo 1%nat NC))) <= attenuation - resonance /\
  attenuation - resonance <= (1 + / 10 ^ 15) * (cm2 / 2 * (dp * (hi 0%nat CC + hi 0%nat NC) + dn * (hi 1%nat CC + hi 1%nat NC))).
Proof.
  intros GeV tiny Gp Tp Xp Xn other tau_all tau_lep cm2 cm2GeV GeVm1 nt numneu ne E glashow odd fuel s l s' made Tabp Tabn Gridp Gridn Cp
    c t old (Snt & Srho & Snu & Sne & S3 & Stau) Rd dp dn Hd Pp Pn Ps r a e Part Le f g pt Hf Hpt proj k Hproj attenuation resonance.
  assert (Hr : (r < XsTabModel.nrhos nt)%nat) by (destruct nt; cbn in *; lia).
  assert (Sh : shaped c).
  { unfold shaped. rewrite Snt, Srho, Snu. repeat split; try lia; destruct nt; cbn; try congruence.
    all: intro H; specialize (Stau H); congruence. }
  assert (An : is_anti (c_nt c) r = a).
  { rewrite Snt. destruct nt; cbn in Part; cbn [is_anti nt_eqb andb orb].
    - now destruct Part as (_ & ->).
    - now destruct Part as (_ & ->).
    - destruct Part as [(-> & ->)|(-> & ->)]; reflexivity. }
  assert (Lf : (f < 3)%nat) by (destruct f as [|[|[|f]]]; cbn in Hf; [lia..|destruct f; discriminate]).
  assert (Fl : exists fl, XsTabProps.flavour_of f fl /\ meant_flavour fl g).
  { destruct f as [|[|[|f]]]; cbn in Hf; [injection Hf as <-..|destruct f; discriminate]; eexists; (split; [reflexivity|cbn; auto]). }
  destruct Fl as (fl & Fl & Mg).
  assert (V : forall n X i, nth_error [Xp; Xn] n = Some X -> tabulated X -> grid ne E (x_Emax X) -> i = XsTabModel.CC \/ i = XsTabModel.NC -> exists q,
      (match i with XsTabModel.CC => t_sCC t n r f e | _ => t_sNC t n r f e end) = q * cm2 /\ 0 < q /\
      (e = 0%nat -> dis_total GeV tiny X (E 0%nat) g pt (match i with XsTabModel.CC => CC | _ => NC end) = Ok q) /\
      forall b m M, e = S b -> 0 <= m -> (forall x u, E b <= x <= E e -> dis_total GeV tiny X x g pt (match i with XsTabModel.CC => CC | _ => NC end) = Ok u -> m <= u <= M) -> (1 - / 10 ^ 15) * m <= q <= (1 + / 10 ^ 15) * M).
  { intros n X i Hn Tab Gr Hi. assert (Mc : meant_current i (match i with XsTabModel.CC => CC | _ => NC end)) by (destruct Hi as [->| ->]; cbn; auto).
    destruct (c102_totals GeV tiny Tp Xp Xn X other _ _ _ _ _ _ _ _ _ _ _ _ _ _ _ made n r f a fl i Hn Tab Gr Part ltac:(lia) Fl g pt _ Mg Hpt Mc e Le) as (q & Q & Qp & Q0 & B).
    exists q. split; [|split; [exact Qp|split; [exact Q0|exact B]]].
    assert (Ln : (n < 2)%nat) by (destruct n as [|[|n]]; cbn in Hn; [lia..|destruct n; discriminate]).
    destruct (Rd n r f e (q * cm2) Ln Hr ltac:(lia) Le) as (R1 & R2).
    destruct Hi as [->| ->]; cbn [total_key] in Q; auto. }
  destruct (V 0%nat Xp XsTabModel.CC eq_refl Tabp Gridp (or_introl eq_refl)) as (q0c & E0c & P0c & F0c & B0c).
  destruct (V 0%nat Xp XsTabModel.NC eq_refl Tabp Gridp (or_intror eq_refl)) as (q0n & E0n & P0n & F0n & B0n).
  destruct (V 1%nat Xn XsTabModel.CC eq_refl Tabn Gridn (or_introl eq_refl)) as (q1c & E1c & P1c & F1c & B1c).
  destruct (V 1%nat Xn XsTabModel.NC eq_refl Tabn Gridn (or_intror eq_refl)) as (q1n & E1n & P1n & F1n & B1n).
  cbn iota in *. clear V.
  assert (A : attenuation = cm2 / 2 * (dp * (q0c + q0n) + dn * (q1c + q1n)) + resonance).
  { unfold attenuation, resonance. rewrite (c65_absorption proj c t old r e k Sh) by (rewrite ?Hd, ?Srho, ?Sne; (discriminate || assumption)).
    rewrite An, Hd. cbn [length Nat.eqb nth].
    unfold rsum at 1. cbn [seq Nat.sub map fold_right]. rewrite !Hproj by lia.
    assert (Z : forall F, rsum 0 2 F = F 0%nat + F 1%nat) by (intro F; unfold rsum; cbn [seq Nat.sub map fold_right]; ring).
    rewrite !Z. cbn [nth]. destruct f as [|[|[|f]]]; cbn [Nat.eqb andb]; rewrite ?andb_false_r, ?andb_true_r; [| | |lia].
    all: rewrite E0c, E0n, E1c, E1n; destruct (c_gr c && a); cbn [andb]; field. }
  assert (Pos : 0 < cm2 / 2 * (dp * (q0c + q0n) + dn * (q1c + q1n))).
  { apply Rmult_lt_0_compat; [lra|]. destruct (Rle_lt_dec dp 0) as [D|D].
    - pose proof (Rmult_le_pos dp (q0c + q0n) Pp ltac:(lra)). pose proof (Rmult_lt_0_compat dn (q1c + q1n) ltac:(lra) ltac:(lra)). lra.
    - pose proof (Rmult_lt_0_compat dp (q0c + q0n) ltac:(lra) ltac:(lra)). pose proof (Rmult_le_pos dn (q1c + q1n) Pn ltac:(lra)). lra. }
  split.
  - intro Pg. rewrite A. assert (0 <= resonance).
    { unfold resonance. destruct (c_gr c && a && Nat.eqb f 0) eqn:Q; [|lra]. apply andb_prop in Q as [Q _]. apply andb_prop in Q as [Q _].
      pose proof (Rmult_le_pos _ _ Pp (Pg Q)). lra. }
    lra.
  - split.
    { intros E0 pc pn nc nn H1 H2 H3 H4. rewrite (F0c E0) in H1. rewrite (F0n E0) in H2. rewrite (F1c E0) in H3. rewrite (F1n E0) in H4. congruence. }
    intros b lo hi Eb Lo Bd. rewrite A.
    destruct (B0c b (lo 0%nat CC) (hi 0%nat CC) Eb (Lo _ _)) as (L1 & U1); [intros x u; apply (Bd 0%nat Xp CC x u eq_refl (or_introl eq_refl))|].
    destruct (B0n b (lo 0%nat NC) (hi 0%nat NC) Eb (Lo _ _)) as (L2 & U2); [intros x u; apply (Bd 0%nat Xp NC x u eq_refl (or_intror eq_refl))|].
    destruct (B1c b (lo 1%nat CC) (hi 1%nat CC) Eb (Lo _ _)) as (L3 & U3); [intros x u; apply (Bd 1%nat Xn CC x u eq_refl (or_introl eq_refl))|].
    destruct (B1n b (lo 1%nat NC) (hi 1%nat NC) Eb (Lo _ _)) as (L4 & U4); [intros x u; apply (Bd 1%nat Xn NC x u eq_refl (or_intror eq_refl))|].
    set (lm := 1 - / 10 ^ 15) in *. set (um := 1 + / 10 ^ 15) in *. clearbody lm um.
    assert (W : forall d x y z w, 0 <= d -> x <= z -> y <= w -> d * (x + y) <= d * (z + w)) by (intros; apply Rmult_le_compat_l; lra).
    pose proof (W dp _ _ _ _ Pp L1 L2). pose proof (W dn _ _ _ _ Pn L3 L4). pose proof (W dp _ _ _ _ Pp U1 U2). pose proof (W dn _ _ _ _ Pn U3 U4).
    split.
    + replace (lm * (cm2 / 2 * (dp * (lo 0%nat CC + lo 0%nat NC) + dn * (lo 1%nat CC + lo 1%nat NC))))
        with (cm2 / 2 * (dp * (lm * lo 0%nat CC + lm * lo 0%nat NC) + dn * (lm * lo 1%nat CC + lm * lo 1%nat NC))) by ring.
      match goal with |- _ <= ?x + _ - _ => apply Rle_trans with x; [apply Rmult_le_compat_l; lra|lra] end.
    + replace (um * (cm2 / 2 * (dp * (hi 0%nat CC + hi 0%nat NC) + dn * (hi 1%nat CC + hi 1%nat NC))))
        with (cm2 / 2 * (dp * (um * hi 0%nat CC + um * hi 0%nat NC) + dn * (um * hi 1%nat CC + um * hi 1%nat NC))) by ring.
      match goal with |- ?x + _ - _ <= _ => apply Rle_trans with x; [lra|apply Rmult_le_compat_l; lra] end.
Qed.

(** In matter of positive density the attenuation is positive.  It is at most
    in proportion to the mass density, over the mass of a nucleon. *)
Theorem c103_matter : forall GeV tiny, 0 < GeV -> 0 < tiny ->
  forall Xp Xn other tau_all tau_lep cm2 cm2GeV GeVm1 nt numneu ne E glashow odd fuel s l s',
  XsTabModel.make (dis_lib GeV tiny fuel Xp Xn other) tau_all tau_lep cm2 cm2GeV GeVm1 nt numneu ne E glashow odd s = Ok (l, s') ->
  tabulated Xp -> tabulated Xn -> grid ne E (x_Emax Xp) -> grid ne E (x_Emax Xn) -> 0 < cm2 ->
  forall c t old, same_setting c nt numneu ne -> reads s' t nt numneu ne ->
  forall K rho ye, good_consts K -> 0 < rho -> 0 <= ye <= 1 -> c_dens c = target_densities K false rho ye -> c_gr c = false ->
  forall r a e, XsTabProps.particle nt r a -> (e < ne)%nat ->
  forall f g pt, nth_error [electron; muon; tau] f = Some g -> meant_particle a pt ->
  forall proj k, (forall f', (f' < 3)%nat -> proj r f' e k = if Nat.eqb f' f then 1 else 0) ->
  0 < gamma_rho proj (update_lengths c t old) e r k /\
  forall b H m, e = S b -> 0 < m <= k_mn K -> m <= k_me K + k_mp K ->
  (forall X i x u, X = Xp \/ X = Xn -> i = CC \/ i = NC -> E b <= x <= E e -> dis_total GeV tiny X x g pt i = Ok u -> 0 <= u <= H) ->
  gamma_rho proj (update_lengths c t old) e r k <= (1 + / 10 ^ 15) * (cm2 * (k_gcm3 K * rho / m) * H).
Proof.
  intros GeV tiny Gp Tp Xp Xn other tau_all tau_lep cm2 cm2GeV GeVm1 nt numneu ne E glashow odd fuel s l s' made Tabp Tabn Gridp Gridn Cp
    c t old Set_ Rd K rho ye GK Prho Hye Hd Hgr r a e Part Le f g pt Hf Hpt proj k Hproj.
  destruct (c35_nucleons K rho ye GK Hye) as (np & nn & D & Mass & _ & Nn & Ps). rewrite D in Hd.
  destruct (Nn ltac:(lra)) as [Pp Pn]. destruct (Ps Prho) as [P0 _].
  destruct (c103_attenuation GeV tiny Gp Tp Xp Xn other _ _ _ _ _ _ _ _ _ _ _ _ _ _ _ made Tabp Tabn Gridp Gridn Cp c t old Set_ Rd np nn Hd Pp Pn P0
    r a e Part Le f g pt Hf Hpt proj k Hproj) as (A & _ & B).
  split; [apply A; congruence|]. intros b H m Eb Hm1 Hm2 Bd.
  destruct (B b (fun _ _ => 0) (fun _ _ => H) Eb) as (_ & U); [intros; lra| |].
  { intros n X i x u Hn. apply Bd. destruct n as [|[|n]]; cbn in Hn; [injection Hn as <-; auto..|destruct n; discriminate]. }
  rewrite Hgr in U. cbn [andb] in U. rewrite Rminus_0_r in U. eapply Rle_trans; [exact U|].
  assert (H0 : 0 <= H).
  { pose proof Gridp as (_ & As & To). subst e. destruct (As b Le) as [Lt _]. pose proof (grid_pos ne E _ b Gridp ltac:(lia)) as Pb. pose proof (To (S b) Le).
    destruct (total_pos GeV tiny Tp Xp (E b) g pt CC Tabp) as (v & V & _); [destruct f as [|[|[|f]]]; cbn in Hf; [injection Hf as <-; discriminate..|destruct f; discriminate]|lra|].
    destruct (Bd Xp CC (E b) v (or_introl eq_refl) (or_introl eq_refl) ltac:(lra) V). lra. }
  assert (Tot : np + nn <= k_gcm3 K * rho / m).
  { apply Rmult_le_reg_r with m; [lra|]. unfold Rdiv. rewrite Rmult_assoc, Rinv_l, Rmult_1_r by lra. rewrite <- Mass.
    pose proof (Rmult_le_compat_l np _ _ Pp Hm2). pose proof (Rmult_le_compat_l nn _ _ Pn (proj2 Hm1)). lra. }
  apply Rmult_le_compat_l. { pose proof tiny_margin. lra. }
  replace (cm2 / 2 * (np * (H + H) + nn * (H + H))) with (cm2 * (np + nn) * H) by field.
  apply Rmult_le_compat_r; [exact H0|]. apply Rmult_le_compat_l; lra.
Qed.

(** Without matter nothing is attenuated, whatever the tables hold and with
    the resonance on or off. *)
Theorem c103_vacuum : forall proj c t old r e k K ye, shaped c -> (r < c_nrhos c)%nat -> (e < c_ne c)%nat ->
  good_consts K -> 0 <= ye <= 1 -> c_dens c = target_densities K false 0 ye ->
  gamma_rho proj (update_lengths c t old) e r k = 0.
Proof.
  intros proj c t old r e k K ye Sh Hr He GK Hye Hd.
  destruct (c35_nucleons K 0 ye GK Hye) as (np & nn & D & Mass & _ & Nn & _). rewrite D in Hd. destruct (Nn ltac:(lra)) as [Pp Pn].
  destruct GK as (G1 & G2 & G3 & _). rewrite Rmult_0_r in Mass.
  pose proof (Rmult_le_pos _ _ (Rlt_le _ _ (Rplus_lt_0_compat _ _ G1 G2)) Pp) as M1. pose proof (Rmult_le_pos _ _ (Rlt_le _ _ G3) Pn) as M2.
  assert (N1 : np = 0) by (apply Rmult_eq_reg_l with (k_me K + k_mp K); lra). assert (N2 : nn = 0) by (apply Rmult_eq_reg_l with (k_mn K); lra). subst np nn.
  rewrite c65_absorption by (rewrite ?Hd; (discriminate || assumption)). rewrite Hd. cbn [length Nat.eqb nth].
  unfold rsum. cbn [seq Nat.sub map fold_right nth]. destruct (c_gr c && is_anti (c_nt c) r); cbn [andb Nat.eqb]; ring.
Qed.
(** with the resonance on *)
Example c103_vacuum_case : gamma_rho ex_proj (update_lengths (ex_c IntModel.NuBar 1 false true false (target_densities ex_k false 0 (1 / 3)) [1 / 2; 1 / 2]) ex_t ex_s) 2%nat 0%nat 0%nat = 0.
Proof.
  apply (c103_vacuum _ _ _ _ _ _ _ ex_k (1 / 3)); try (cbn; lia); try lra; try reflexivity.
  - unfold shaped, ex_c; cbn; repeat split; congruence || lia.
  - exact (proj1 c35_example).
Qed.

(** Of two settings which differ only in how much matter there is, not in what
    it is made of, the one with [q] times the mass density attenuates [q]
    times as much: every flavour, with the resonance on or off. *)
Theorem c103_proportional : forall proj c c' t old old' r e k K rho ye q, shaped c -> shaped c' ->
  c_nt c' = c_nt c -> c_gr c' = c_gr c -> c_nrhos c' = c_nrhos c -> c_ne c' = c_ne c -> (r < c_nrhos c)%nat -> (e < c_ne c)%nat ->
  c_dens c = target_densities K false rho ye -> c_dens c' = target_densities K false (q * rho) ye ->
  gamma_rho proj (update_lengths c' t old') e r k = q * gamma_rho proj (update_lengths c t old) e r k.
Proof.
  intros proj c c' t old old' r e k K rho ye q Sh Sh' Ent Egr Enr Ene Hr He Hd Hd'.
  assert (D : exists np nn, target_densities K false rho ye = [np; nn] /\ target_densities K false (q * rho) ye = [q * np; q * nn]).
  { unfold target_densities. destruct (Req_EM_T ye 0); do 2 eexists; (split; [reflexivity|]); unfold Rdiv; (apply (f_equal2 cons); [ring|]); (apply (f_equal2 cons); [ring|reflexivity]). }
  destruct D as (np & nn & D & D'). rewrite D in Hd. rewrite D' in Hd'.
  rewrite !c65_absorption by (rewrite ?Hd, ?Hd', ?Enr, ?Ene; (discriminate || assumption)). rewrite Hd, Hd', Ent, Egr. cbn [length Nat.eqb nth].
  unfold rsum. cbn [seq Nat.sub map fold_right nth]. destruct (c_gr c && is_anti (c_nt c) r); cbn [andb Nat.eqb]; ring.
Qed.
(** rock and twice as dense a rock *)
Example c103_proportional_case :
  let at_ rho := gamma_rho ex_proj (update_lengths (ex_c IntModel.NuBar 1 false true false (target_densities ex_k false rho (1 / 3)) [1 / 2; 1 / 2]) ex_t ex_s) 2%nat 0%nat 0%nat in
  at_ 6 = 2 * at_ 3.
Proof.
  cbv zeta. replace 6 with (2 * 3) by ring.
  apply (c103_proportional _ _ _ _ _ _ _ _ _ ex_k 3 (1 / 3)); try (cbn; lia); try reflexivity; unfold shaped, ex_c; cbn; repeat split; congruence || lia.
Qed.

(** the spectra stored are the spectra read *)
Definition reads_spectra (s : XsTabModel.store) (t : itables) (nt : XsTabModel.nutype) (numneu ne : nat) : Prop :=
  forall g r f e e' v, (g < 2)%nat -> (r < XsTabModel.nrhos nt)%nat -> (f < numneu)%nat -> (e < ne)%nat -> (e' < e)%nat ->
  s (XsTabModel.DNC g r f e e') = Some (XsTabModel.Num v) -> t_dNC t g r f e e' = v.

Lemma feeding_factor : forall GeV tiny, 0 < GeV -> 0 < tiny ->
  forall Xp Xn other tau_all tau_lep cm2 cm2GeV GeVm1 nt numneu ne E glashow odd fuel s l s',
  XsTabModel.make (dis_lib GeV tiny fuel Xp Xn other) tau_all tau_lep cm2 cm2GeV GeVm1 nt numneu ne E glashow odd s = Ok (l, s') ->
  tabulated Xp -> tabulated Xn -> grid ne E (x_Emax Xp) -> grid ne E (x_Emax Xn) -> 0 < cm2 -> 0 < cm2GeV ->
  forall c t old, same_setting c nt numneu ne -> reads s' t nt numneu ne -> reads_spectra s' t nt numneu ne ->
  forall K rho ye, good_consts K -> 0 < rho -> 0 <= ye <= 1 -> c_dens c = target_densities K false rho ye -> c_frac c = target_fractions 2 ye ->
  c_gr c = false -> c_tau c = false -> (forall b, 0 < c_delE c b) ->
  forall r a e, XsTabProps.particle nt r a -> (e < ne)%nat ->
  forall f, (f < 3)%nat ->
  forall flux, (forall e2, (e < e2 < ne)%nat -> 0 <= flux r f e2) ->
  (0 < factor c t (update_lengths c t old) flux r f e <-> exists e2, (e < e2 < ne)%nat /\ 0 < flux r f e2) /\ 0 <= factor c t (update_lengths c t old) flux r f e.
Proof.
  intros GeV tiny Gp Tp Xp Xn other tau_all tau_lep cm2 cm2GeV GeVm1 nt numneu ne E glashow odd fuel s l s' made Tabp Tabn Gridp Gridn Cp Cg
    c t old Set_ Rd Rs K rho ye GK Prho Hye Hd Hfr Hgr Htau Hde r a e Part Le f Lf flux Fl.
  pose proof Set_ as (Snt & Srho & Snu & Sne & S3 & _).
  assert (Hr : (r < XsTabModel.nrhos nt)%nat) by (destruct nt; cbn in *; lia).
  assert (Sh : shaped c).
  { unfold shaped. rewrite Snt, Srho, Snu, Htau. repeat split; try lia; destruct nt; cbn; congruence. }
  destruct (c35_nucleons K rho ye GK Hye) as (np & nn & D & _ & _ & Nn & Ps). rewrite D in Hd.
  destruct (Nn ltac:(lra)) as [Pp Pn]. destruct (Ps Prho) as [P0 Fr]. rewrite Fr in Hfr. clear Fr Nn Ps D.
  assert (G : exists g fl pt, XsTabProps.flavour_of f fl /\ meant_flavour fl g /\ meant_particle a pt).
  { destruct f as [|[|[|f]]]; [| | |lia]; do 2 eexists; exists (if a then antineutrino else neutrino); (split; [reflexivity|split; [cbn; eauto|destruct a; reflexivity]]). }
  destruct G as (g & fl & pt & Hfl & Mg & Mp).
  assert (Mc : meant_current XsTabModel.NC NC) by (cbn; auto).
  assert (Tot : forall n X e2, nth_error [Xp; Xn] n = Some X -> tabulated X -> grid ne E (x_Emax X) -> (e2 < ne)%nat -> (n < 2)%nat -> 0 < t_sNC t n r f e2).
  { intros n X e2 Hn Tab Gr L2 Ln.
    destruct (c102_totals GeV tiny Tp Xp Xn X other _ _ _ _ _ _ _ _ _ _ _ _ _ _ _ made n r f a fl XsTabModel.NC Hn Tab Gr Part ltac:(lia) Hfl g pt NC Mg Mp Mc e2 L2) as (q & Q & Qp & _).
    destruct (Rd n r f e2 (q * cm2) Ln Hr ltac:(lia) L2) as (_ & W). rewrite (W Q). now apply Rmult_lt_0_compat. }
  assert (Spec : forall n X e2, nth_error [Xp; Xn] n = Some X -> tabulated X -> grid ne E (x_Emax X) -> (e < e2 < ne)%nat -> (n < 2)%nat -> 0 < t_dNC t n r f e2 e).
  { intros n X e2 Hn Tab Gr L2 Ln.
    destruct (c102_spectra GeV tiny Gp Tp Xp Xn X other _ _ _ _ _ _ _ _ _ _ _ _ _ _ _ made n r f a fl XsTabModel.NC Hn Tab Gr Part ltac:(lia) Hfl g pt NC Mg Mp Mc Cp Cg e2 e ltac:(lia) ltac:(lia)) as (x & y & Q & _ & Px & Py & _).
    rewrite (Rs n r f e2 e _ Ln Hr ltac:(lia) ltac:(lia) ltac:(lia) Q). apply Rdiv_lt_0_compat; apply Rmult_lt_0_compat; assumption. }
  set (w := fun e2 => (np / (np + nn) * t_dNC t 0 r f e2 e + nn / (np + nn) * t_dNC t 1 r f e2 e) * ((t_sNC t 0 r f e2 * np + t_sNC t 1 r f e2 * nn) * c_delE c (e2 - 1))).
  assert (Two : forall x y x' y', 0 <= x -> 0 <= y -> 0 < x + y -> 0 < x' -> 0 < y' -> 0 < x * x' + y * y').
  { intros x y x' y' X Y XY X' Y'. destruct (Rle_lt_dec x 0) as [Z|Z].
    - pose proof (Rmult_le_pos x x' X ltac:(lra)). pose proof (Rmult_lt_0_compat y y' ltac:(lra) Y'). lra.
    - pose proof (Rmult_lt_0_compat x x' Z X'). pose proof (Rmult_le_pos y y' Y ltac:(lra)). lra. }
  assert (Wp : forall e2, (e < e2 < ne)%nat -> 0 < w e2).
  { intros e2 L2. unfold w. apply Rmult_lt_0_compat; [|apply Rmult_lt_0_compat; [|apply Hde]].
    - assert (I : 0 < / (np + nn)) by (now apply Rinv_0_lt_compat).
      apply Two; try (apply Rmult_le_pos; lra).
      + replace (np / (np + nn) + nn / (np + nn)) with 1 by (field; lra). lra.
      + apply (Spec 0%nat Xp); auto.
      + apply (Spec 1%nat Xn); auto.
    - rewrite (Rmult_comm _ np), (Rmult_comm _ nn). apply Two; try assumption.
      + apply (Tot 0%nat Xp); auto; lia.
      + apply (Tot 1%nat Xn); auto; lia. }
  assert (Src : factor c t (update_lengths c t old) flux r f e = rsum (S e) ne (fun e2 => flux r f e2 * w e2)).
  { unfold factor. rewrite Htau, Hgr. cbn [andb]. rewrite !Rplus_0_r.
    unfold nc_source. rewrite Sne, Hd. apply rsum_ext. intros e2 L2. cbn [length].
    assert (Z : forall F, rsum 0 2 F = F 0%nat + F 1%nat) by (intro F; unfold rsum; cbn [seq Nat.sub map fold_right]; ring).
    rewrite Z. unfold fr. rewrite Hfr. cbn [nth].
    unfold update_lengths. rewrite Hgr. cbn [andb s_NC]. rewrite Hd, invlen_sum by discriminate. cbn [length]. rewrite Z. cbn [nth].
    unfold w. ring. }
  assert (Nonneg : forall lo, (S e <= lo)%nat -> 0 <= rsum lo ne (fun e2 => flux r f e2 * w e2)).
  { intros lo Hlo. apply rsum_nonneg. intros i Hi. apply Rmult_le_pos; [apply Fl; lia|apply Rlt_le, Wp; lia]. }
  rewrite Src. split; [split|apply Nonneg; lia].
  - intro P. destruct (classic (exists e2, (e < e2 < ne)%nat /\ 0 < flux r f e2)) as [Y|N]; [exact Y|]. exfalso.
    rewrite rsum_zero in P; [lra|]. intros i Hi. pose proof (Fl i ltac:(lia)) as F0.
    destruct (Rle_lt_or_eq_dec _ _ F0) as [A|A]; [exfalso; apply N; exists i; split; [lia|exact A]|]. rewrite <- A. ring.
  - intros (e2 & L2 & P). rewrite (rsum_split (S e) e2 ne) by lia. rewrite (rsum_first e2 ne) by lia.
    assert (0 <= rsum (S e) e2 (fun e3 => flux r f e3 * w e3)) by (apply rsum_nonneg; intros i Hi; apply Rmult_le_pos; [apply Fl; lia|apply Rlt_le, Wp; lia]).
    pose proof (Nonneg (S e2) ltac:(lia)). pose proof (Rmult_lt_0_compat _ _ P (Wp e2 L2)). lra.
Qed.

(** In matter neutrinos of a flavour feed every lower energy through neutral
    currents: where there is some of the flavour above, and nowhere less than
    none, its source is positive; where there is none above, zero. *)
Theorem c103_feeding : forall GeV tiny, 0 < GeV -> 0 < tiny ->
  forall Xp Xn other tau_all tau_lep cm2 cm2GeV GeVm1 nt numneu ne E glashow odd fuel s l s',
  XsTabModel.make (dis_lib GeV tiny fuel Xp Xn other) tau_all tau_lep cm2 cm2GeV GeVm1 nt numneu ne E glashow odd s = Ok (l, s') ->
  tabulated Xp -> tabulated Xn -> grid ne E (x_Emax Xp) -> grid ne E (x_Emax Xn) -> 0 < cm2 -> 0 < cm2GeV ->
  forall c t old, same_setting c nt numneu ne -> reads s' t nt numneu ne -> reads_spectra s' t nt numneu ne ->
  forall K rho ye, good_consts K -> 0 < rho -> 0 <= ye <= 1 -> c_dens c = target_densities K false rho ye -> c_frac c = target_fractions 2 ye ->
  c_gr c = false -> c_tau c = false -> c_src c = false -> (forall b, 0 < c_delE c b) ->
  forall r a e, XsTabProps.particle nt r a -> (e < ne)%nat ->
  forall f, (f < 3)%nat ->
  forall dot proj st last k, (forall f', (f' < 3)%nat -> proj r f' e k = if Nat.eqb f' f then 1 else 0) ->
  let flux e2 := dot (proj r f e2) (st e2 r) in
  let source := term_osc dot proj st c t old last r e k in
  (forall e2, (e < e2 < ne)%nat -> 0 <= flux e2) ->
  (0 < source <-> exists e2, (e < e2 < ne)%nat /\ 0 < flux e2) /\ 0 <= source.
Proof.
  intros GeV tiny Gp Tp Xp Xn other tau_all tau_lep cm2 cm2GeV GeVm1 nt numneu ne E glashow odd fuel s l s' made Tabp Tabn Gridp Gridn Cp Cg
    c t old Set_ Rd Rs K rho ye GK Prho Hye Hd Hfr Hgr Htau Hsrc Hde r a e Part Le f Lf dot proj st last k Hproj flux source Fl.
  pose proof Set_ as (Snt & Srho & Snu & Sne & S3 & _).
  assert (Hr : (r < XsTabModel.nrhos nt)%nat) by (destruct nt; cbn in *; lia).
  assert (Sh : shaped c) by (unfold shaped; rewrite Snt, Srho, Snu, Htau; repeat split; try lia; destruct nt; cbn; congruence).
  assert (Src : source = factor c t (update_lengths c t old) (fluxe dot proj st) r f e).
  { unfold source, term_osc. rewrite interactions_osc_eq by (try assumption; rewrite ?Srho, ?Sne; assumption || lia). rewrite Hsrc, Rplus_0_r.
    rewrite (rsum_single 0 3 _ f); [|lia|].
    - rewrite Hproj by lia. rewrite Nat.eqb_refl. ring.
    - intros i Hi Ni. rewrite Hproj by lia. destruct (Nat.eqb_spec i f); [contradiction|]. ring. }
  rewrite Src. exact (feeding_factor GeV tiny Gp Tp Xp Xn other tau_all tau_lep cm2 cm2GeV GeVm1 nt numneu ne E glashow odd fuel s l s' made Tabp Tabn Gridp Gridn Cp Cg
    c t old Set_ Rd Rs K rho ye GK Prho Hye Hd Hfr Hgr Htau Hde r a e Part Le f Lf (fluxe dot proj st) Fl).
Qed.
(** The same without oscillations. *)
Theorem c103_feeding_still : forall GeV tiny, 0 < GeV -> 0 < tiny ->
  forall Xp Xn other tau_all tau_lep cm2 cm2GeV GeVm1 nt numneu ne E glashow odd fuel s l s',
  XsTabModel.make (dis_lib GeV tiny fuel Xp Xn other) tau_all tau_lep cm2 cm2GeV GeVm1 nt numneu ne E glashow odd s = Ok (l, s') ->
  tabulated Xp -> tabulated Xn -> grid ne E (x_Emax Xp) -> grid ne E (x_Emax Xn) -> 0 < cm2 -> 0 < cm2GeV ->
  forall c t old, same_setting c nt numneu ne -> reads s' t nt numneu ne -> reads_spectra s' t nt numneu ne ->
  forall K rho ye, good_consts K -> 0 < rho -> 0 <= ye <= 1 -> c_dens c = target_densities K false rho ye -> c_frac c = target_fractions 2 ye ->
  c_gr c = false -> c_tau c = false -> c_src c = false -> (forall b, 0 < c_delE c b) ->
  forall r a e, XsTabProps.particle nt r a -> (e < ne)%nat ->
  forall f, (f < 3)%nat ->
  forall dot proj st rne k, (ne <= rne)%nat -> (forall f', (f' < 3)%nat -> proj r f' 0%nat k = if Nat.eqb f' f then 1 else 0) ->
  let flux e2 := dot (proj r f 0%nat) (st e2 r) in
  let source := term_noosc dot proj st c t old rne r e k in
  (forall e2, (e < e2 < ne)%nat -> 0 <= flux e2) ->
  (0 < source <-> exists e2, (e < e2 < ne)%nat /\ 0 < flux e2) /\ 0 <= source.
Proof.
  intros GeV tiny Gp Tp Xp Xn other tau_all tau_lep cm2 cm2GeV GeVm1 nt numneu ne E glashow odd fuel s l s' made Tabp Tabn Gridp Gridn Cp Cg
    c t old Set_ Rd Rs K rho ye GK Prho Hye Hd Hfr Hgr Htau Hsrc Hde r a e Part Le f Lf dot proj st rne k Hrne Hproj flux source Fl.
  pose proof Set_ as (Snt & Srho & Snu & Sne & S3 & _).
  assert (Hr : (r < XsTabModel.nrhos nt)%nat) by (destruct nt; cbn in *; lia).
  assert (Sh : shaped c) by (unfold shaped; rewrite Snt, Srho, Snu, Htau; repeat split; try lia; destruct nt; cbn; congruence).
  assert (Src : source = factor c t (update_lengths c t old) (flux0 dot proj st) r f e).
  { unfold source, term_noosc. rewrite cache_noosc_eq by (try assumption; rewrite ?Srho, ?Sne; assumption || lia). rewrite Hsrc, Rplus_0_r.
    rewrite (rsum_single 0 3 _ f); [|lia|].
    - rewrite Hproj by lia. rewrite Nat.eqb_refl. ring.
    - intros i Hi Ni. rewrite Hproj by lia. destruct (Nat.eqb_spec i f); [contradiction|]. ring. }
  rewrite Src. exact (feeding_factor GeV tiny Gp Tp Xp Xn other tau_all tau_lep cm2 cm2GeV GeVm1 nt numneu ne E glashow odd fuel s l s' made Tabp Tabn Gridp Gridn Cp Cg
    c t old Set_ Rd Rs K rho ye GK Prho Hye Hd Hfr Hgr Htau Hde r a e Part Le f Lf (flux0 dot proj st) Fl).
Qed.

(** Tables as in the example of C102, of three energies; matter of density two. *)
Example c103_case : exists c t, same_setting c XsTabModel.Both 4 3 /\ c_gr c = false /\ c_dens c = target_densities ex_k false 2 (1 / 2) /\
  0 < gamma_rho (fun _ f _ j => if Nat.eqb f j then 1 else 0) (update_lengths c t ex_s) 2%nat 1%nat 1%nat.
Proof.
  destruct c102_case as (fuel & s' & M & _).
  set (t := MkT (fun _ _ _ _ _ => 0) (fun _ _ _ _ _ => 0) (fun _ _ => 0)
    (fun g r f e => match s' (XsTabModel.SCC g r f e) with Some (XsTabModel.Num v) => v | _ => 0 end)
    (fun g r f e => match s' (XsTabModel.SNC g r f e) with Some (XsTabModel.Num v) => v | _ => 0 end) (fun _ => 0) (fun _ _ _ => 0) (fun _ _ _ => 0)).
  set (c := MkC IntModel.Both 2 3 4 false false false (target_densities ex_k false 2 (1 / 2)) [1 / 2; 1 / 2] (1 / 2) (fun _ => 1) (fun _ _ _ => 1)).
  assert (Sc : same_setting c XsTabModel.Both 4 3) by (repeat split; cbn; (lia || discriminate)).
  exists c, t. split; [exact Sc|]. split; [reflexivity|]. split; [reflexivity|].
  destruct c35_example as [GK _].
  assert (Rd : reads s' t XsTabModel.Both 4 3) by (intros g r f e v _ _ _ _; cbn [t t_sCC t_sNC]; split; intros ->; reflexivity).
  exact (proj1 (c103_matter (1 / 10) (1 / 100) ltac:(lra) ltac:(lra) _ _ _ _ _ _ _ _ _ _ _ _ _ _ _ _ _ _ M ex_tabulated ex_tabulated ex_on_grid ex_on_grid ltac:(lra)
    c t ex_s Sc Rd ex_k 2 (1 / 2) GK ltac:(lra) ltac:(lra) eq_refl eq_refl 1%nat true 2%nat (or_intror (conj eq_refl eq_refl)) ltac:(lia)
    1%nat muon antineutrino eq_refl eq_refl (fun _ f _ j => if Nat.eqb f j then 1 else 0) 1%nat (fun _ _ => eq_refl))).
Qed.
(** The same tables with one neutrino of each flavour at every energy. *)
Example c103_feeding_case : exists c t, same_setting c XsTabModel.Both 4 3 /\ 0 < term_osc ex_dot ex_proj ex_st c t ex_s ex_f 1%nat 1%nat 1%nat /\
  term_osc ex_dot ex_proj ex_st c t ex_s ex_f 1%nat 2%nat 1%nat <= 0.
Proof.
  destruct c102_case as (fuel & s' & M & _).
  set (t := MkT (fun g r f e e' => match s' (XsTabModel.DNC g r f e e') with Some (XsTabModel.Num v) => v | _ => 0 end) (fun _ _ _ _ _ => 0) (fun _ _ => 0)
    (fun g r f e => match s' (XsTabModel.SCC g r f e) with Some (XsTabModel.Num v) => v | _ => 0 end)
    (fun g r f e => match s' (XsTabModel.SNC g r f e) with Some (XsTabModel.Num v) => v | _ => 0 end) (fun _ => 0) (fun _ _ _ => 0) (fun _ _ _ => 0)).
  set (c := MkC IntModel.Both 2 3 4 false false false (target_densities ex_k false 2 (1 / 2)) (target_fractions 2 (1 / 2)) (1 / 2) (fun _ => 1) (fun _ _ _ => 1)).
  assert (Sc : same_setting c XsTabModel.Both 4 3) by (repeat split; cbn; (lia || discriminate)).
  exists c, t. split; [exact Sc|]. destruct c35_example as [GK _].
  assert (Rd : reads s' t XsTabModel.Both 4 3) by (intros g r f e v _ _ _ _; cbn [t t_sCC t_sNC]; split; intros ->; reflexivity).
  assert (Rs : reads_spectra s' t XsTabModel.Both 4 3) by (intros g r f e e' v _ _ _ _ _; cbn [t t_dNC]; intros ->; reflexivity).
  assert (F : forall e2, ex_dot (ex_proj 1 1 e2) (ex_st e2 1%nat) = 1) by (intro; unfold ex_dot, ex_proj, ex_st; cbn; lra).
  assert (A : forall e, (e < 3)%nat -> (0 < term_osc ex_dot ex_proj ex_st c t ex_s ex_f 1%nat e 1%nat <-> exists e2, (e < e2 < 3)%nat /\ 0 < ex_dot (ex_proj 1 1 e2) (ex_st e2 1%nat))).
  { intros e Le. apply (fun H H2 => proj1 (c103_feeding (1 / 10) (1 / 100) ltac:(lra) ltac:(lra) _ _ _ _ _ _ _ _ _ _ _ _ _ _ _ _ _ _ M ex_tabulated ex_tabulated ex_on_grid ex_on_grid ltac:(lra) ltac:(lra)
      c t ex_s Sc Rd Rs ex_k 2 (1 / 2) GK ltac:(lra) ltac:(lra) eq_refl eq_refl eq_refl eq_refl eq_refl (fun _ => Rlt_0_1) 1%nat true e (or_intror (conj eq_refl eq_refl)) Le
      1%nat ltac:(lia) ex_dot ex_proj ex_st ex_f 1%nat H H2)).
    - intros f' Lf. unfold ex_proj. now rewrite Nat.eqb_sym.
    - intros e2 _. rewrite F. lra. }
  split.
  - apply A; [lia|]. exists 2%nat. split; [lia|]. rewrite F. lra.
  - apply Rnot_lt_le. intro H. apply A in H as (e2 & L & _); lia.
Qed.
Print Assumptions c103_attenuation.
Print Assumptions c103_matter.
Print Assumptions c103_proportional.
Print Assumptions c103_vacuum.
Print Assumptions c103_feeding.
Print Assumptions c103_feeding_still.
