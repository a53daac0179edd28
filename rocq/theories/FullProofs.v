(** The equation handed to SQuIDS is the one of FullSpec. *)
From Coq Require Import Reals List Arith Bool Lia Lra.
From Verif Require Import TauModel XsModel IntModel IntProofs IntLayoutProofs IntProps StateModel StateProofs StateHistory StateLaws StateReady StateFrames.
From Verif Require Import CMatrix FlavorModel FlavorProofs FlavorProps FlavorEqn FlavorEqnProps AvgProofs SuperModel SuperProofs SuperProps PosProofs PosProps.
From Verif Require Import TransProofs TransProps EndModel EndProps FullModel FullSpec.
Import ListNotations.
Local Open Scope R_scope.

(** ** Medium *)
Definition good_media (m : media) : Prop := good_consts (m_k m) /\ forall b p, 0 <= m_ye m b p <= 1.

Lemma dens_length k one rho ye : length (target_densities k one rho ye) = kinds one.
Proof. unfold target_densities, kinds. destruct one; [reflexivity|]. destruct (Req_EM_T ye 0); reflexivity. Qed.
Lemma dens_some k one rho ye : target_densities k one rho ye <> [].
Proof. intro E. pose proof (dens_length k one rho ye) as X. rewrite E in X. destruct one; discriminate X. Qed.
Lemma dens_nucleons k one rho ye i : good_consts k -> 0 <= ye <= 1 -> (i < kinds one)%nat ->
  nth i (target_densities k one rho ye) 0 = nucleons k one rho ye i.
Proof.
  intros (M1 & M2 & M3 & _) Y L. unfold target_densities, nucleons. destruct one; cbn [kinds] in L.
  - destruct i; [|lia]. cbn [nth]. unfold rlt.
    replace (k_gcm3 k * rho * 2 / (k_me k + k_mp k + k_mn k)) with (2 * (k_gcm3 k * rho) / (k_me k + k_mp k + k_mn k)) by (field; lra).
    destruct (Rlt_dec _ _); reflexivity.
  - destruct (Req_EM_T ye 0) as [->|N]; destruct i as [|[|i]]; try lia; cbn [nth].
    + field. lra.
    + field. lra.
    + assert (0 < ye) by lra. assert (0 < (k_me k + k_mp k) * ye) by (apply Rmult_lt_0_compat; lra).
      assert (0 <= k_mn k * (1 - ye)) by (apply Rmult_le_pos; lra). field. split; lra.
    + assert (0 < ye) by lra. assert (0 < (k_me k + k_mp k) * ye) by (apply Rmult_lt_0_compat; lra).
      assert (0 <= k_mn k * (1 - ye)) by (apply Rmult_le_pos; lra). field. split; lra.
Qed.
Lemma fractions_share n one ye i : one = Nat.eqb n 1 -> (i < kinds one)%nat -> nth i (target_fractions n ye) 0 = share one ye i.
Proof. intros -> L. unfold target_fractions, share. destruct (Nat.eqb n 1); cbn [kinds] in L; destruct i as [|[|i]]; try lia; reflexivity. Qed.

(** ** Losses and gains *)
Section Terms.
Variable m : media.
Variable emission : body -> R -> nat -> nat -> nat -> R.
Variable tab : tabs -> list R -> nt -> itables.
Hypothesis GM : good_media m.
Variable s : nus.
Variable l : leg.
Variable p : R.
Let c := conf_of m emission s (l_body l) p.
Let g := stage_of tab s l.
Let w := object_of s.
Let tb := held tab s.

Lemma one_targets : sg_one g = Nat.eqb (targets_held s) 1.
Proof. unfold g, stage_of, targets_held. cbn [sg_one]. destruct (i_tabs (q_ints s)); reflexivity. Qed.
Lemma tab_held : sg_tab g = tb. Proof. reflexivity. Qed.
Lemma conf_length : length (c_dens c) = kinds (sg_one g).
Proof. unfold c, conf_of. cbn [c_dens]. rewrite dens_length, one_targets. reflexivity. Qed.
Lemma conf_dens_some : c_dens c <> []. Proof. apply dens_some. Qed.
Lemma conf_nucleons i : (i < kinds (sg_one g))%nat -> nth i (c_dens c) 0 = nucleons (m_k m) (sg_one g) (rho_ m g p) (ye_ m g p) i.
Proof. intro L. unfold c, conf_of. cbn [c_dens]. rewrite <- one_targets. apply dens_nucleons; [apply GM|apply GM|exact L]. Qed.
Lemma conf_share i : (i < kinds (sg_one g))%nat -> fr c i = share (sg_one g) (ye_ m g p) i.
Proof. intro L. unfold fr, c, conf_of. cbn [c_frac]. apply fractions_share; [apply one_targets|exact L]. Qed.
Lemma conf_width i : (0 < i)%nat -> c_delE c (i - 1) = width w (i - 1).
Proof. intro L. unfold c, conf_of, width, w. cbn [c_delE ob_E object_of]. rewrite Nat.add_1_r. reflexivity. Qed.
Lemma conf_anti r : is_anti (c_nt c) r = anti_kind w r.
Proof. unfold is_anti, anti_kind, c, w. cbn [conf_of c_nt object_of ob_nt]. destruct (q_nt s); cbn; rewrite ?orb_false_r; reflexivity. Qed.

Lemma lens sigma : len_sum c sigma = each g (fun i => nucleons (m_k m) (sg_one g) (rho_ m g p) (ye_ m g p) i * sigma i).
Proof. unfold len_sum, each. rewrite conf_length. apply IntProofs.rsum_ext. intros i I. rewrite conf_nucleons by lia. ring. Qed.
Lemma len_e : num_e c = electrons (m_k m) (sg_one g) (rho_ m g p) (ye_ m g p).
Proof.
  unfold num_e, electrons. rewrite conf_length, conf_nucleons by (unfold kinds; destruct (sg_one g); lia).
  destruct (sg_one g); cbn [kinds Nat.eqb]; [|ring]. change (c_ye c) with (ye_ m g p). ring.
Qed.

Lemma losses r f e : shaped c -> (r < c_nrhos c)%nat -> (e < c_ne c)%nat ->
  IntProofs.rsum 0 (length (c_dens c)) (fun i => nth i (c_dens c) 0 * (t_sNC tb i r f e + t_sCC tb i r f e)) +
  (if c_gr c && is_anti (c_nt c) r && Nat.eqb f 0 then (if Nat.eqb (length (c_dens c)) 1 then c_ye c * nth 0 (c_dens c) 0 else nth 0 (c_dens c) 0) * t_sGR tb e else 0)
  = loss m w g p r f e.
Proof.
  intros Hs Hr He. unfold loss, neutral_len, charged_len. rewrite <- !lens. unfold len_sum. rewrite <- IntProofs.rsum_plus. f_equal.
  - apply IntProofs.rsum_ext. intros. rewrite tab_held. ring.
  - rewrite conf_anti. change (c_gr c) with (sg_gr g). destruct (sg_gr g && anti_kind w r && Nat.eqb f 0)%bool; [|reflexivity].
    unfold resonant_len. rewrite <- len_e, tab_held. unfold num_e. destruct (Nat.eqb _ 1); ring.
Qed.

Lemma gains old flux r f e : shaped c -> (r < c_nrhos c)%nat -> (f < 3)%nat -> (e < c_ne c)%nat ->
  factor c tb (update_lengths c tb old) flux r f e = gain m w g p flux r f e.
Proof.
  intros Hs Hr Hf He. unfold factor, gain.
  assert (CD := conf_dens_some).
  assert (T : forall r et, (0 < et)%nat -> tau_flux c tb (update_lengths c tb old) flux r et = taus m w g p flux r et).
  { intros r0 et Het. apply IntProofs.rsum_ext. intros en Hen. unfold tau_skip, rle. cbv zeta.
    assert (A : IntProofs.rsum 0 (length (c_dens c)) (fun trg => flux r0 2%nat en * s_CC (update_lengths c tb old) r0 2%nat en * c_delE c (en - 1) * fr c trg * t_dCC tb trg r0 2 en et * c_delE c (et - 1))
      = each g (fun i => flux r0 2%nat en * charged_len m g p r0 2 en * width w (en - 1) * share (sg_one g) (ye_ m g p) i * t_dCC (sg_tab g) i r0 2 en et * width w (et - 1))).
    { unfold each. rewrite conf_length. apply IntProofs.rsum_ext. intros i I. rewrite s_CC_eq, lens, !conf_width, conf_share by (assumption || lia).
      reflexivity. }
    destruct (Rle_dec (flux 0%nat 2%nat en) 0); [|exact A]. destruct (Rle_dec (flux 1%nat 2%nat en) 0); [reflexivity|exact A]. }
  f_equal; [f_equal|].
  - apply IntProofs.rsum_ext. intros e2 He2. unfold each. rewrite conf_length. apply IntProofs.rsum_ext. intros i I.
    rewrite s_NC_eq, lens, conf_width, conf_share by (assumption || lia). change (each g _) with (neutral_len m g p r f e2). rewrite tab_held. ring.
  - change (c_tau c) with (sg_tau g). destruct (sg_tau g); [|reflexivity]. unfold decayed. destruct (Nat.eqb f 2);
      apply IntProofs.rsum_ext; intros et Het; rewrite T by lia; reflexivity.
  - rewrite conf_anti. change (c_gr c) with (sg_gr g). destruct (sg_gr g && anti_kind w r)%bool eqn:G; [|reflexivity].
    assert (GO : glashow_on c = true).
    { destruct Hs as (Hb & Hn & _). pose proof (glashow_rho c r Hr Hb Hn) as X. rewrite conf_anti in X. change (c_gr c) with (sg_gr g) in X.
      rewrite G in X. apply andb_true_iff in X. apply X. }
    apply IntProofs.rsum_ext. intros e2 He2. assert (e2 < c_ne c)%nat by (apply He2). rewrite s_GR_eq, len_e, conf_width by (assumption || lia). unfold resonant_len. rewrite tab_held. ring.
Qed.
End Terms.

(** ** From vectors to matrices *)
Lemma mat_comb n M d q (a : nat -> R) (v : nat -> vec) : su_repr n M d ->
  meq n (M (fun k => IntProofs.rsum 0 q (fun f => a f * v f k))) (msum q (fun f => mscale (a f) (M (v f)))).
Proof.
  intro su. induction q as [|q IH].
  - eapply meq_trans; [apply (su_ext _ _ _ su _ vzero); intros k _; rewrite IntProofs.rsum_nil by lia; reflexivity|].
    eapply meq_trans; [apply (su_ext _ _ _ su vzero (vscale 0 vzero)); intros; unfold vscale, vzero; ring|].
    eapply meq_trans; [apply (su_scale _ _ _ su)|]. intros i j _ _. apply Ceq; cbn; ring.
  - eapply meq_trans; [apply (su_ext _ _ _ su _ (vadd (fun k => IntProofs.rsum 0 q (fun f => a f * v f k)) (vscale (a q) (v q))))|].
    + intros k _. rewrite (IntProofs.rsum_split 0 q (S q)) by lia. unfold vadd, vscale. f_equal. rewrite IntProofs.rsum_first, IntProofs.rsum_nil by lia. ring.
    + eapply meq_trans; [apply (su_add _ _ _ su)|]. cbn [msum]. apply mplus_meq; [exact IH|apply (su_scale _ _ _ su)].
Qed.

(** ** From the basis in use to the mass basis *)
Definition rotated (b : basis) (H : mat) (t : R) (A : mat) : mat := match b with BMass => A | _ => evolve H t A end.
Lemma rotated_meq n b H t A B : meq n A B -> meq n (rotated b H t A) (rotated b H t B).
Proof. intro E. destruct b; cbn [rotated]; try exact E; apply evolve_meq, E. Qed.
Lemma rotated_plus n b H t A B : meq n (mplus (rotated b H t A) (rotated b H t B)) (rotated b H t (mplus A B)).
Proof. destruct b; cbn [rotated]; try apply meq_refl; apply meq_sym, evolve_plus. Qed.
Lemma rotated_zero n b H t : meq n mzero (rotated b H t mzero).
Proof. destruct b; cbn [rotated]; try apply meq_refl; apply meq_sym, evolve_zero. Qed.
Lemma rotated_comb n b H t q (a : nat -> R) (P : nat -> mat) :
  meq n (msum q (fun f => mscale (a f) (rotated b H t (P f)))) (rotated b H t (msum q (fun f => mscale (a f) (P f)))).
Proof.
  induction q as [|q IH]; cbn [msum]; [apply rotated_zero|]. eapply meq_trans; [|apply rotated_plus]. apply mplus_meq; [exact IH|].
  destruct b; cbn [rotated]; try apply meq_refl; apply meq_sym, evolve_scale.
Qed.

Lemma back_to_mass_all n H Q G I (rho : R -> mat) t0 t : diag_real n H ->
  mderiv n rho t (rhs n (evolve H (t - t0) Q) (evolve H (t - t0) G) (evolve H (t - t0) I) (rho t)) ->
  mderiv n (fun s => evolve H (- (s - t0)) (rho s)) t (rhs n (mplus Q H) G I (evolve H (- (t - t0)) (rho t))).
Proof.
  intros D M. set (K := mscale (-1) H).
  assert (M' : mderiv n rho t (rhs n (mplus (mplus (evolve H (t - t0) Q) H) K) (evolve H (t - t0) G) (evolve H (t - t0) I) (rho t))).
  { eapply FlavorEqn.mderiv_meq; [|exact M]. apply rhs_meq; try apply meq_refl. intros i j _ _. unfold K, mplus, mscale. apply Ceq; cbn; ring. }
  pose proof (change_of_basis n K _ _ _ rho t0 t (diag_neg n H D) M') as X.
  assert (U : forall Z, meq n (evolve K (t - t0) (evolve H (t - t0) Z)) Z).
  { intros Z a b _ _. unfold evolve, K, mscale. cbn [re rtc cmult].
    match goal with |- (cexp ?x * (cexp ?y * _))%C = _ => replace (cexp x * (cexp y * Z a b))%C with ((cexp x * cexp y) * Z a b)%C by ring end.
    rewrite cexp_plus. match goal with |- (cexp ?x * _)%C = _ => replace x with 0 by (cbn; ring) end. rewrite cexp_0. ring. }
  assert (Y : mderiv n (fun s => evolve K (s - t0) (rho s)) t (rhs n (mplus Q H) G I (evolve H (- (t - t0)) (rho t)))).
  { eapply FlavorEqn.mderiv_meq; [|exact X]. apply rhs_meq; [|apply U|apply U|apply evolve_neg].
    eapply meq_trans; [apply evolve_plus|]. apply mplus_meq; [apply U|]. eapply meq_trans; [apply evolve_neg|]. apply evolve_diag, D. }
  eapply mderiv_ext; [|exact Y]. intro s. apply evolve_neg.
Qed.

(** ** The slope *)
(** shape of an object: the number of kinds; taus only for both *)
Definition shapes (s : nus) : Prop :=
  (q_nt s = IntModel.Both -> q_nrhos s = 2%nat) /\ (q_nt s <> IntModel.Both -> q_nrhos s = 1%nat) /\ (o_tau (q_opts s) = true -> q_nt s = IntModel.Both).

Section Slope.
Variable order : list (nat * nat).
Variable m : media.
Variable emission : body -> R -> nat -> nat -> nat -> R.
Variable tab : tabs -> list R -> nt -> itables.
Hypothesis GM : good_media m.
Variable s : nus.
Let n := q_numneu s.
Variable M : vec -> mat.
Variable d : vec -> vec -> R.
Hypothesis su : su_repr n M d.
Hypothesis FR : fresh s.
Hypothesis HO : h_osc (q_h0 s) = true.
Hypothesis OS : o_osc (q_opts s) = true.
Hypothesis N3 : (3 <= n)%nat.
Hypothesis SH : shapes s.
Hypothesis OO : Forall (fun p => (fst p < snd p < n)%nat) order.
Let w := object_of s.
Let bs := basis_of (o_basis (q_opts s)).
(** where the state of a node and kind stands in the mass basis at clock [x] *)
Definition home (st : R -> nat -> nat -> vec) (x : R) (e r : nat) : mat := back bs (stored_H s e) (x - sq_t0 (q_sq s)) (M (st x e r)).

Lemma conf_shaped b p : shaped (conf_of m emission s b p).
Proof. destruct SH as (A & B & C). unfold shaped. cbn. repeat split; assumption. Qed.
Lemma stored_P_flavour e r f : (r < q_nrhos s)%nat -> (f < n)%nat -> stored_P order s r f = flavour order (at_node w e r) f.
Proof. intros Hr Hf. exact (stored_flavour order s e r f FR Hr Hf OO). Qed.
Lemma used_rotated x e r f : (r < q_nrhos s)%nat -> (f < n)%nat ->
  used_P order s e r x f = rotated bs (stored_H s e) (x - sq_t0 (q_sq s)) (flavour order (at_node w e r) f).
Proof. intros Hr Hf. unfold used_P, bs. rewrite <- stored_P_flavour by assumption. destruct (basis_of (o_basis (q_opts s))); reflexivity. Qed.

Lemma slope_terms x b off len (st : R -> nat -> nat -> vec) pr old fold e r : (e < q_ne s)%nat -> (r < q_nrhos s)%nat ->
  (forall r f e, (r < q_nrhos s)%nat -> (f < n)%nat -> (e < q_ne s)%nat -> meq n (M (pr r f e)) (used_P order s e r x f)) ->
  let g := stage_of tab s (Leg b off len) in
  let wl := leg_world order m (at_node w e r) (Leg b off len) in
  let H := stored_H s e in
  let T := x - sq_t0 (q_sq s) in
  H = w_H wl /\ diag_real n H /\
  meq n (M (absorption (o_int (q_opts s)) (held tab s) pr (conf_of m emission s b (x - off)) old e r)) (rotated bs H T (damping order m w g (x - off) e r)) /\
  meq n (M (regeneration d (o_int (q_opts s)) (o_osc (q_opts s)) (held tab s) (r4 (q_ne s)) pr (st x) (conf_of m emission s b (x - off)) old fold e r))
     (rotated bs H T (supply order m emission w g (x - off) (seen order w (home st x)) e r)) /\
  meq n (ham order m s b off e r x) (match bs with BMass => full wl x | _ => evolve H T (pot (w_cc wl x) (w_nc wl x) (w_P wl)) end).
Proof.
  intros He Hr PR. cbv zeta. set (l := Leg b off len). set (g := stage_of tab s l). set (c := conf_of m emission s b (x - off)) in *.
  set (tb := held tab s) in *. set (H := stored_H s e). set (T := x - sq_t0 (q_sq s)).
  assert (EH : H = w_H (leg_world order m (at_node w e r) l)) by (exact (stored_vacuum order m s e r l FR HO)).
  assert (DH : diag_real n H) by (rewrite EH; exact (mass_diag (leg_world order m (at_node w e r) l))).
  assert (CS : shaped c) by apply conf_shaped. assert (CD : c_dens c <> []) by apply dens_some.
  assert (R4 : (q_ne s <= r4 (q_ne s))%nat) by (pose proof (Nat.div_mod (q_ne s + 3) 4); pose proof (Nat.mod_upper_bound (q_ne s + 3) 4); unfold r4; lia).
  assert (PT : forall f, (f < n)%nat -> meq n (M (pr r f e)) (rotated bs H T (flavour order (at_node w e r) f))).
  { intros f Hf. eapply meq_trans; [apply PR; assumption|]. rewrite used_rotated by assumption. apply meq_refl. }
  (* absorption *)
  assert (A1 : meq n (M (absorption (o_int (q_opts s)) tb pr c old e r)) (rotated bs H T (damping order m w g (x - off) e r))).
  { unfold absorption, damping. change (ob_int w) with (o_int (q_opts s)). destruct (o_int (q_opts s)).
    - eapply meq_trans; [apply (su_ext _ _ _ su _ (fun k => IntProofs.rsum 0 3 (fun f => 1 / 2 * loss m w g (x - off) r f e * pr r f e k)))|].
      + intros k _. rewrite c65_absorption by assumption. apply IntProofs.rsum_ext. intros f Hf.
        pose proof (losses m emission tab GM s l (x - off) r f e CS Hr He) as L. change (object_of s) with w in L. change (stage_of tab s l) with g in L.
        rewrite <- L. reflexivity.
      + eapply meq_trans; [apply (mat_comb n M d 3 (fun f => 1 / 2 * loss m w g (x - off) r f e) (fun f => pr r f e) su)|].
        eapply meq_trans; [|apply rotated_comb]. apply msum_meq. intros f Hf. apply mscale_meq, PT. lia.
    - eapply meq_trans; [|apply rotated_zero]. eapply meq_trans; [apply (su_ext _ _ _ su vzero (vscale 0 vzero)); intros; unfold vscale, vzero; ring|].
      eapply meq_trans; [apply (su_scale _ _ _ su)|]. intros i j _ _. apply Ceq; cbn; ring. }
  (* regeneration *)
  set (B := home st x).
  assert (FX : forall r f e, (r < q_nrhos s)%nat -> (f < 3)%nat -> (e < q_ne s)%nat -> flux_of true d pr (st x) r f e = seen order w B r f e).
  { intros r0 f0 e0 R0 F0 E0. unfold flux_of, fluxe. rewrite (su_dot _ _ _ su). unfold seen, B, home. cbn [ob_n w object_of]. fold n.
    rewrite <- read_back. unfold expect. f_equal. apply trace_meq, mmult_meq; [|apply meq_refl].
    eapply meq_trans; [apply PR; (assumption || lia)|]. rewrite used_rotated by (assumption || lia). unfold rotated. destruct bs; apply meq_refl. }
  assert (A2 : meq n (M (regeneration d (o_int (q_opts s)) (o_osc (q_opts s)) tb (r4 (q_ne s)) pr (st x) c old fold e r))
     (rotated bs H T (supply order m emission w g (x - off) (seen order w B) e r))).
  { set (V := fun k => if o_int (q_opts s) then IntProofs.rsum 0 3 (fun f => gain m w g (x - off) (seen order w B) r f e * pr r f e k) else 0).
    set (W := fun k => if o_src (q_opts s) then IntProofs.rsum 0 n (fun f => emission b (x - off) e r f * pr r f e k) else 0).
    eapply meq_trans; [apply (su_ext _ _ _ su _ (vadd V W))|].
    - intros k _. rewrite regeneration_eq by assumption. rewrite OS. unfold vadd, V, W. change (c_src c) with (o_src (q_opts s)).
      assert (Y : IntProofs.rsum 0 3 (fun f => factor c tb (update_lengths c tb old) (flux_of true d pr (st x)) r f e * pr r f e k)
        = IntProofs.rsum 0 3 (fun f => gain m w g (x - off) (seen order w B) r f e * pr r f e k)).
      { apply IntProofs.rsum_ext. intros f Hf. f_equal. rewrite (factor_ext c tb _ _ (seen order w B) r f e CS Hr (proj2 Hf)).
        - exact (gains m emission tab GM s l (x - off) old (seen order w B) r f e CS Hr (proj2 Hf) He).
        - intros r2 f2 e2 R2 F2 E2. apply FX; [exact R2|exact F2|apply E2]. }
      rewrite Y, andb_false_r. unfold sources_at. change (c_numneu c) with n. change (c_ext c) with (emission b (x - off)).
      destruct (o_int (q_opts s)), (o_src (q_opts s)); ring.
    - eapply meq_trans; [apply (su_add _ _ _ su)|]. unfold supply. eapply meq_trans; [|apply rotated_plus]. apply mplus_meq.
      + unfold V. change (ob_int w) with (o_int (q_opts s)). destruct (o_int (q_opts s)).
        * eapply meq_trans; [apply (mat_comb n M d 3 (fun f => gain m w g (x - off) (seen order w B) r f e) (fun f => pr r f e) su)|].
          eapply meq_trans; [|apply rotated_comb]. apply msum_meq. intros f Hf. apply mscale_meq, PT. lia.
        * eapply meq_trans; [|apply rotated_zero]. eapply meq_trans; [apply (su_ext _ _ _ su _ (vscale 0 vzero)); intros; unfold vscale, vzero; ring|].
          eapply meq_trans; [apply (su_scale _ _ _ su)|]. intros i j _ _. apply Ceq; cbn; ring.
      + unfold W. change (sg_src g) with (o_src (q_opts s)). change (l_body (sg_leg g)) with b. destruct (o_src (q_opts s)).
        * eapply meq_trans; [apply (mat_comb n M d n (fun f => emission b (x - off) e r f) (fun f => pr r f e) su)|].
          eapply meq_trans; [|apply rotated_comb]. apply msum_meq. intros f Hf. apply mscale_meq, PT. exact Hf.
        * eapply meq_trans; [|apply rotated_zero]. eapply meq_trans; [apply (su_ext _ _ _ su _ (vscale 0 vzero)); intros; unfold vscale, vzero; ring|].
          eapply meq_trans; [apply (su_scale _ _ _ su)|]. intros i j _ _. apply Ceq; cbn; ring. }
  (* Hamiltonian *)
  set (wl := leg_world order m (at_node w e r) l) in *.
  assert (A3 : meq n (ham order m s b off e r x) (match bs with BMass => full wl x | _ => evolve H T (pot (w_cc wl x) (w_nc wl x) (w_P wl)) end)).
  { unfold ham, hi. rewrite cc_charged, nc_neutral. change (basis_of (o_basis (q_opts s))) with bs.
    assert (U : forall f, (f < 3)%nat -> used_P order s e r x f = rotated bs H T (w_P wl f)) by (intros f Hf; apply used_rotated; [exact Hr|lia]).
    rewrite !U by lia. fold H. destruct bs; cbn [rotated].
    2:{ unfold full, pot. rewrite EH. apply meq_refl. }
    all: apply meq_sym, evolve_pot. }
  repeat split; assumption.
Qed.

Lemma slope_home x b off len st pr old fold e r : (e < q_ne s)%nat -> (r < q_nrhos s)%nat ->
  (forall r f e, (r < q_nrhos s)%nat -> (f < n)%nat -> (e < q_ne s)%nat -> meq n (M (pr r f e)) (used_P order s e r x f)) ->
  solves_at n M d (o_int (q_opts s)) (o_osc (q_opts s)) (held tab s) (r4 (q_ne s)) (ham order m s b off e r x) pr (conf_of m emission s b (x - off)) old fold st x e r ->
  mderiv n (fun u => home st u e r) x (change order m emission w (stage_of tab s (Leg b off len)) x (home st x) e r).
Proof.
  intros He Hr PR D. destruct (slope_terms x b off len st pr old fold e r He Hr PR) as (EH & DH & A1 & A2 & A3).
  set (l := Leg b off len) in *. set (g := stage_of tab s l) in *. set (c := conf_of m emission s b (x - off)) in *.
  set (tb := held tab s) in *. set (H := stored_H s e) in *. set (T := x - sq_t0 (q_sq s)) in *. set (wl := leg_world order m (at_node w e r) l) in *.
  set (B := home st x) in *.
  assert (X : mderiv n (fun u => M (st u e r)) x (rhs n (match bs with BMass => full wl x | _ => evolve H T (pot (w_cc wl x) (w_nc wl x) (w_P wl)) end)
     (rotated bs H T (damping order m w g (x - off) e r)) (rotated bs H T (supply order m emission w g (x - off) (seen order w B) e r)) (M (st x e r)))).
  { unfold solves_at in D. eapply FlavorEqn.mderiv_meq; [|exact D]. apply rhs_meq; try assumption. apply meq_refl. }
  unfold home, change. change (sg_leg g) with l. change (l_shift l) with off. fold B. unfold B at 2, home. fold H T. fold wl. change (ob_n w) with n.
  clearbody bs. destruct bs; cbn [back rotated] in X |- *.
  2:{ exact X. }
  all: unfold full; rewrite <- EH; apply back_to_mass_all; [exact DH|exact X].
Qed.
End Slope.

(** ** Switches and shape throughout a life *)
Section Life.
Variable e : env.

Lemma made_shapes k s : made e k s -> shapes s.
Proof.
  pose (vw := fun s : nus => (q_nt s, q_nrhos s, o_tau (q_opts s))).
  assert (P : forall i j v, stable (keeps vw) (set_phase e i j v)) by (intros; unfold set_phase; stab_with (keeps_r _ vw) (keeps_t _ vw)).
  assert (A : forall i j v, stable (keeps vw) (set_angle e i j v)) by (intros; unfold set_angle; stab_with (keeps_r _ vw) (keeps_t _ vw)).
  assert (D : forall i v, stable (keeps vw) (set_dm e i v)) by (intros; unfold set_dm; stab_with (keeps_r _ vw) (keeps_t _ vw)).
  assert (SD : stable (keeps vw) (set_defaults e)) by (unfold set_defaults; stab_with (keeps_r _ vw) (keeps_t _ vw); auto).
  assert (FL : stable (keeps vw) (flip_phases e)) by (unfold flip_phases; stab_with (keeps_r _ vw) (keeps_t _ vw); auto).
  assert (SP : stable (keeps vw) (set_projectors e)) by (unfold set_projectors, rotate, cp_fix; stab_with (keeps_r _ vw) (keeps_t _ vw); auto).
  assert (I0 : stable (keeps vw) ini_h0) by (unfold ini_h0; stab_with (keeps_r _ vw) (keeps_t _ vw)).
  intro H. destruct H as [E numneu t iint x s ev H|numneu t s ev H].
  - unfold make_multi in H. cbv zeta in H. match type of H with ?f ?b = _ => assert (X : stable (keeps vw) f) end.
    { stab_with (keeps_r _ vw) (keeps_t _ vw); auto. }
    specialize (X (blank t numneu (length E) (if nt_eqb t IntModel.Both then 2%nat else 1%nat) iint x (e_h e) (300 * e_km e))).
    rewrite H in X. unfold keeps, vw in X. cbn in X. injection X as X1 X2 X3. unfold shapes. rewrite X1, X2, X3.
    destruct t; cbn; repeat split; congruence.
  - unfold make_single in H. cbv zeta in H. match type of H with ?f ?b = _ => assert (X : stable (keeps vw) f) end.
    { stab_with (keeps_r _ vw) (keeps_t _ vw); auto. }
    specialize (X (blank t numneu 1 1 false None (e_km e) 0)).
    rewrite H in X. unfold keeps, vw in X. cbn in X. injection X as X1 X2 X3. unfold shapes. rewrite X1, X2, X3.
    destruct t; cbn; repeat split; try congruence. intros _. discriminate H.
Qed.

Lemma life_switches k s0 h s : made e k s0 -> history e s0 h s -> e_ini_num e true = true -> oscillating h ->
  (o_osc (q_opts s) = true /\ o_pos (q_opts s) = false /\ o_const (q_opts s) = false /\ o_int (q_opts s) = o_int (q_opts s0)) /\ sq_num (q_sq s) = true.
Proof.
  intros Mk H IN N. induction H as [|h s c r1 s1 ev1 H IH E U].
  - pose proof (made_spec e k s0 Mk) as X. destruct (nw_opts _ _ _ X) as (i & sc & O). rewrite O. cbn.
    split; [tauto|exact (nw_num _ _ _ X)].
  - destruct IH as (Z1 & Z2); [intros en X; apply N; right; exact X|].
    pose proof (history_agrees e k s0 h s Mk H) as A. pose proof (ag_wf _ _ _ _ A) as W.
    assert (OB : s1 = out_obj (exec e c s)) by (rewrite E; reflexivity). rewrite OB.
    destruct (is_evolve c) eqn:V.
    { destruct c; try discriminate V. destruct (num_evolve e s) as (X1 & X2); [tauto|]. rewrite X1, X2. tauto. }
    split.
    + destruct (is_opt c) eqn:O; [|rewrite opts_frame by assumption; exact Z1].
      pose proof (N _ (or_introl eq_refl)) as NC. cbn in NC.
      destruct c; try discriminate O; cbn [exec];
        unfold set_tau, set_gr, set_osc, set_pos, set_const, set_scale, set_basis, set_sources, read, modify, throw;
        repeat match goal with |- context [if ?b then _ else _] => destruct b eqn:? end; cbn; try tauto;
        repeat match goal with x : bool |- _ => destruct x end; tauto.
    + destruct (is_init c) eqn:J.
      * destruct (init_cases e c s W J) as [X|(t1 & s2 & _ & X & S2 & _)]; rewrite X; [exact Z2|].
        cbn. rewrite (ss_num _ _ _ _ S2), Z2. exact IN.
      * rewrite sq_frame by assumption. exact Z2.
Qed.

Lemma life_shapes k s0 h s : made e k s0 -> history e s0 h s -> e_ini_num e true = true -> oscillating h -> shapes s.
Proof.
  intros Mk H IN N. induction H as [|h s c r1 s1 ev1 H IH E U]; [exact (made_shapes k s0 Mk)|].
  assert (N' : oscillating h) by (intros en X; apply N; right; exact X).
  specialize (IH N'). destruct (life_switches k s0 h s Mk H IN N') as (Z & _).
  pose proof (history_agrees e k s0 h s Mk H) as A. pose proof (ag_wf _ _ _ _ A) as W.
  assert (OB : s1 = out_obj (exec e c s)) by (rewrite E; reflexivity).
  assert (NT : q_nt s1 = q_nt s /\ q_nrhos s1 = q_nrhos s).
  { destruct (is_init c) eqn:J.
    - destruct (init_cases e c s W J) as [X|(t1 & s2 & _ & X & S2 & _)]; rewrite OB, X; [split; reflexivity|]. cbn. split; apply S2.
    - destruct (is_param c) eqn:P.
      + destruct (param_cases e c s W P) as [Y|(s2 & Y & Fr & _)]; rewrite OB, Y; [split; reflexivity|]. cbn. rewrite Fr. split; reflexivity.
      + pose proof (core_exec e c J P s) as K. rewrite <- OB in K. unfold core_keeps, keeps, core in K. injection K as K1 _ _ K4 _ _ _ _ _ _ _.
        split; assumption. }
  destruct NT as (NT & NR). destruct IH as (I1 & I2 & I3).
  assert (TA : o_tau (q_opts s1) = true -> q_nt s = IntModel.Both).
  { rewrite OB. destruct (is_evolve c) eqn:V.
    { destruct c; try discriminate V. destruct (num_evolve e s) as (_ & ->); [tauto|]. exact I3. }
    destruct (is_opt c) eqn:O; [|rewrite opts_frame by assumption; exact I3].
    destruct c; try discriminate O; cbn [exec];
      unfold set_tau, set_gr, set_osc, set_pos, set_const, set_scale, set_basis, set_sources, read, modify, throw;
      repeat match goal with |- context [if ?b then _ else _] => destruct b eqn:? end; cbn; try exact I3.
    intros ->. destruct (q_nt s); cbn in *; try reflexivity; discriminate. }
  unfold shapes. rewrite NT, NR. repeat split; assumption.
Qed.

(** ** The voyage *)
Variable order : list (nat * nat).
Variable m : media.
Variable emission : body -> R -> nat -> nat -> nat -> R.
Variable tab : tabs -> list R -> nt -> itables.
Variable mat_of : nat -> vec -> mat.
Variable dot : nat -> vec -> vec -> R.
Variable dec : nat -> nat -> list R -> nat -> nat -> mat.

Definition legs (gs : list stage) : list leg := map sg_leg gs.

Lemma voyage_snoc w t gs A B g (sol : R -> nat -> nat -> mat) T : voyage order m emission w t gs A B -> T = t + total (legs gs) ->
  0 <= l_len (sg_leg g) -> same w (sol T) B ->
  (forall x e r, T <= x <= T + l_len (sg_leg g) -> (e < ob_ne w)%nat -> (r < ob_nr w)%nat ->
     mderiv (ob_n w) (fun u => sol u e r) x (change order m emission w g x (sol x) e r)) ->
  voyage order m emission w t (gs ++ [g]) A (sol (T + l_len (sg_leg g))).
Proof.
  intros W. revert T. induction W as [t A B M|t g0 gs A B sol0 L0 S0 D W IH]; intros T ET Ln Eq De; cbn [app legs map total fold_right] in *.
  - replace T with t in * by lra. eapply vo_leg; [exact Ln| |exact De|apply vo_nil; intros e0 r0 _ _; apply meq_refl].
    intros e0 r0 He Hr. eapply meq_trans; [apply Eq; assumption|]. apply meq_sym, M; assumption.
  - eapply vo_leg; [exact L0|exact S0|exact D|]. apply IH; try assumption. rewrite ET. fold (legs gs). fold (total (legs gs)). ring.
Qed.

(** the matrices of an object in the mass basis *)
Definition matrices (s : nus) (ie r : nat) : mat :=
  back (basis_of (o_basis (q_opts s))) (stored_H s ie) (sq_t (q_sq s) - sq_t0 (q_sq s)) (matrix dec s (sq_state (q_sq s)) ie r).

Record on_voyage (s : nus) (t0 : R) (b : StateModel.basis) (v : nat -> nat -> nat -> R) (gs : list stage) : Prop := {
  ov_fresh : fresh s; ov_osc : h_osc (q_h0 s) = true; ov_t0 : sq_t0 (q_sq s) = t0; ov_t : sq_t (q_sq s) = t0 + total (legs gs);
  ov_way : exists B, outcome_is order m emission (object_of s) t0 (basis_of b) v gs B /\ same (object_of s) (matrices s) B }.

Lemma on_voyage_frame s s' t0 b v gs : core s' = core s -> q_sq s' = q_sq s -> o_basis (q_opts s') = o_basis (q_opts s) -> o_int (q_opts s') = o_int (q_opts s) ->
  on_voyage s t0 b v gs -> on_voyage s' t0 b v gs.
Proof.
  intros C Q B I [F O T0 T W]. pose proof C as C'. unfold core in C'.
  injection C' as C1 C2 C3 C4 C5 C6 C7 C8 C9 C10 C11. constructor.
  - exact (fresh_core _ _ C F).
  - rewrite C8. exact O.
  - rewrite Q. exact T0.
  - rewrite Q. exact T.
  - unfold object_of, matrices, matrix, stored_H in *. rewrite C1, C2, C3, C4, C5, C6, C8, Q, B, I. exact W.
Qed.

Lemma passed_on k s0 h s t0 b v gs : made e k s0 -> history e s0 h s -> e_ini_num e true = true -> oscillating h -> good_media m ->
  Forall (fun p => (fst p < snd p < q_numneu s)%nat) order -> su_repr (q_numneu s) (mat_of (q_numneu s)) (dot (q_numneu s)) ->
  exact_all order m emission tab mat_of dot dec e -> passed tab h t0 b v gs -> on_voyage s t0 b v gs.
Proof.
  intros Mk H IN N GM OO SU EX TV. revert s H N OO SU.
  induction TV as [c ev s' h t b v I G T|ev s' h t0 b v gs bd t c1 TV IH B A L|c r ev s' h t0 b v gs TV IH G]; intros s0' H N OO SU;
    inversion H as [|h' s c' r' s1 ev' H' E U]; subst;
    assert (N' : oscillating h) by (intros en X; apply N; right; exact X);
    pose proof (history_agrees e k s0 h s Mk H') as AG; pose proof (ag_wf _ _ _ _ AG) as W;
    destruct (life_switches k s0 h s Mk H' IN N') as ((S2 & S3 & S4 & SI) & S6);
    destruct (life_switches k s0 _ s0' Mk H IN N) as ((_ & _ & _ & SI') & _).
  - destruct (init_cases e c s W I) as [X|(t1 & s1 & T1 & X & SS & _)]; [rewrite X in E; discriminate E|].
    rewrite X in E. injection E as -> <-.
    assert (t1 = t) as -> by (pose proof (ag_track _ _ _ _ AG) as Y; congruence).
    destruct (init_last e c s s0' [] I X) as (s3 & E3). rewrite G in E3. cbn [fst snd] in E3.
    assert (C3 : q_numneu s3 = q_numneu s0' /\ q_ne s3 = q_ne s0' /\ q_nrhos s3 = q_nrhos s0' /\ q_proj s3 = q_proj s0') by (rewrite E3; repeat split).
    destruct C3 as (C1 & C2 & C3 & C4).
    pose proof (ss_fresh _ _ _ _ SS) as FR. constructor.
    + exact FR.
    + rewrite (ss_osc _ _ _ _ SS). exact S2.
    + apply SS.
    + rewrite (ss_t _ _ _ _ SS). cbn. ring.
    + exists (matrices s0'). split; [|intros ie r _ _; apply meq_refl].
      apply vo_nil. intros ie r Hi Hr. apply meq_sym. unfold matrices. cbn [object_of ob_n ob_ne ob_nr] in *.
      eapply meq_trans; [apply back_zero; rewrite (ss_t _ _ _ _ SS), (ss_t0 _ _ _ _ SS); ring|].
      assert (Q : sq_state (q_sq s0') = e_mk e s3 v b) by (rewrite E3; reflexivity). rewrite Q.
      unfold matrix. rewrite <- C1, <- C3. eapply meq_trans; [apply (ea_mk _ _ _ _ _ _ _ _ EX); congruence|].
      unfold put_in, ini_state. cbn [object_of ob_n]. rewrite <- C1. apply msum_meq. intros j J. apply mscale_meq. destruct (basis_of b); try apply meq_refl.
      assert (stored_P order s3 r j = stored_P order s0' r j) as -> by (unfold stored_P; rewrite C1, C4; reflexivity).
      rewrite (stored_flavour order s0' ie r j FR) by (try assumption; congruence). apply meq_refl.
  - pose proof (ag_anchor _ _ _ _ AG) as AN. rewrite A in AN. destruct AN as (LT & OF).
    pose proof (ag_track _ _ _ _ AG) as QT. rewrite LT in QT. pose proof (ag_body _ _ _ _ AG) as QB. rewrite B in QB.
    pose proof E as E0. cbn [exec] in E. rewrite (evolve_state_eq e bd t s QB QT) in E.
    destruct (has_all s) eqn:HA; [|discriminate E]. rewrite seq_eq in E.
    destruct (prep_cases e t s) as (rp & sp & EP & UP & DP & _). rewrite EP in E.
    destruct rp; try discriminate E. specialize (DP eq_refl).
    assert (TU : put_sq_h (StateLaws.turned t s) s = s).
    { unfold StateLaws.turned, rlt. destruct (Rlt_dec (tr_fin t) (tr_ini t)) as [X|_]; [lra|]. destruct s as [? ? ? ? ? ? [? ? ? ? ?] ? ? ? ? ? ? ? ? ?]. reflexivity. }
    rewrite TU in DP.
    pose proof (tail_keeps_tabs e bd t s sp) as TK.
    destruct (tail_ e bd t s sp) as [[r2 s2] e2] eqn:E2. injection E as -> -> _. cbn [out_obj fst snd] in TK.
    unfold tail_, shortcut in E2. rewrite S3, S4, andb_false_r in E2.
    assert (CP : core sp = core s) by (change (core sp) with (core (but_ints sp)); rewrite DP; reflexivity).
    assert (QP : q_sq sp = q_sq s) by (change (q_sq sp) with (q_sq (but_ints sp)); rewrite DP; reflexivity).
    assert (OP : q_opts sp = q_opts s) by (change (q_opts sp) with (q_opts (but_ints sp)); rewrite DP; reflexivity).
    assert (BP : q_body sp = Some bd) by (change (q_body sp) with (q_body (but_ints sp)); rewrite DP; exact QB).
    assert (FP : q_offset sp = Some (c1 - tr_ini t)) by (change (q_offset sp) with (q_offset (but_ints sp)); rewrite DP; exact OF).
    destruct (evolve_done e _ _ _ _ E2) as (BX & _ & _).
    destruct (evolve_solved e _ _ _ _ E2) as (ts & t' & st & SV & ST); [rewrite QP; exact S6|].
    assert (C : core s0' = core s).
    { pose proof (core_exec e CEvolve eq_refl eq_refl s) as K. rewrite E0 in K. exact K. }
    assert (OB : q_opts s0' = q_opts s).
    { change (q_opts s0') with (q_opts (but_x s0')). rewrite BX. exact OP. }
    assert (T' : sq_t (q_sq s0') = sq_t (q_sq s) + (tr_fin t - tr_ini t)) by (rewrite (evolve_clock e _ _ _ _ E2), QP; reflexivity).
    assert (T0' : sq_t0 (q_sq s0') = sq_t0 (q_sq s)).
    { change (sq_t0 (q_sq s0')) with (sq_t0 (q_sq (but_x s0'))). rewrite BX. cbn. rewrite QP. reflexivity. }
    set (l := Leg bd (c1 - tr_ini t) (tr_fin t - tr_ini t)).
    assert (SG : stage_of tab s0' l = stage_of tab sp l).
    { unfold tabs_of in TK. unfold stage_of. rewrite TK, OB, OP. pose proof C as C'. rewrite <- CP in C'. unfold core in C'. injection C' as C1 _ _ _ C5 _ _ _ _ _ _. rewrite C1, C5. reflexivity. }
    pose proof C as C'. unfold core in C'. injection C' as C1 C2 C3 C4 C5 C6 C7 C8 C9 C10 C11.
    pose proof CP as CP'. unfold core in CP'. injection CP' as P1 P2 P3 P4 P5 P6 P7 P8 P9 P10 P11.
    rewrite C2 in OO, SU. destruct (IH s H' N' OO SU) as [F O T0 T (Bm & WB & EB)].
    assert (TL : total (legs (gs ++ [stage_of tab s0' l])) = total (legs gs) + (tr_fin t - tr_ini t)).
    { unfold legs. rewrite map_app. generalize (map sg_leg gs). clear. intro ls. cbn [map stage_of sg_leg].
      induction ls as [|a ls IH]; cbn [app total fold_right] in *; [unfold l; cbn; ring|]. unfold total in IH. rewrite IH. ring. }
    assert (WO : object_of s0' = object_of s) by (unfold object_of; rewrite C1, C2, C3, C4, C5, C6, OB; reflexivity).
    assert (WP : object_of sp = object_of s) by (unfold object_of; rewrite P1, P2, P3, P4, P5, P6, OP; reflexivity).
    assert (HP : forall ie, stored_H sp ie = stored_H s ie) by (intro; unfold stored_H; rewrite P2, P8; reflexivity).
    constructor.
    + exact (fresh_core _ _ C F).
    + rewrite C8. exact O.
    + rewrite T0'. exact T0.
    + rewrite T', T, TL. ring.
    + rewrite WO, SG.
      destruct (ea_solve _ _ _ _ _ _ _ _ EX sp (tr_fin t - tr_ini t) ts t' st bd (c1 - tr_ini t) SV ltac:(lra) BP FP ltac:(rewrite OP; exact S2) ltac:(rewrite P8; exact O) (fresh_core _ _ CP F))
        as (sol & pr & old & fold & PR & D & EN).
      set (hm := home sp (mat_of (q_numneu sp)) sol).
      exists (hm (sq_t (q_sq s) + (tr_fin t - tr_ini t))). split.
      * change (tr_fin t - tr_ini t) with (l_len (sg_leg (stage_of tab sp l))).
        apply voyage_snoc with (T := sq_t (q_sq s)) (B := Bm).
        -- exact WB.
        -- exact T.
        -- cbn. lra.
        -- intros ie r Hi Hr. eapply meq_trans; [|apply EB; assumption]. unfold hm, home, matrices. rewrite HP, QP, OP. cbn [object_of ob_n].
           assert (I0 : meq (q_numneu s) (mat_of (q_numneu sp) (sol (sq_t (q_sq s)) ie r)) (matrix dec s (sq_state (q_sq s)) ie r)).
           { cbn in Hi, Hr. destruct (EN ie r ltac:(rewrite P3; exact Hi) ltac:(rewrite P4; exact Hr)) as (I0 & _). unfold matrix in *. rewrite P4, QP in I0. rewrite P2 in *. exact I0. }
           destruct (basis_of (o_basis (q_opts s))); cbn [back]; try exact I0; apply evolve_meq, I0.
        -- intros x ie r Hx Hi Hr. rewrite <- WP. change (ob_n (object_of sp)) with (q_numneu sp). cbn in Hi, Hr, Hx. unfold hm.
           assert (X3 : (3 <= q_numneu sp)%nat) by (rewrite P2; apply (wf_min _ _ W)).
           assert (SHP : shapes sp).
           { pose proof (life_shapes k s0 h s Mk H' IN N') as Z. unfold shapes in *. rewrite P1, P4, OP. exact Z. }
           apply (slope_home order m emission tab GM sp (mat_of (q_numneu sp)) (dot (q_numneu sp)) ltac:(rewrite P2; exact SU)
             (fresh_core _ _ CP F) ltac:(rewrite P8; exact O) ltac:(rewrite OP; exact S2) X3 SHP ltac:(rewrite P2; exact OO) x bd (c1 - tr_ini t) (tr_fin t - tr_ini t) sol (pr x) (old x) (fold x) ie r).
           ++ rewrite P3. exact Hi.
           ++ rewrite P4. exact Hr.
           ++ intros r1 f1 e1 R1 F1 E1. apply PR; assumption.
           ++ apply D; [rewrite QP; exact Hx|rewrite P3; exact Hi|rewrite P4; exact Hr].
      * intros ie r Hi Hr. cbn in Hi, Hr. unfold hm, home, matrices. rewrite HP, QP, OP, OB. cbn [object_of ob_n]. rewrite T', T0', ST.
        assert (SH : stored_H s0' ie = stored_H s ie) by (unfold stored_H; rewrite C2, C8; reflexivity). rewrite SH.
        assert (I1 : meq (q_numneu s) (matrix dec s0' st ie r) (mat_of (q_numneu sp) (sol (sq_t (q_sq s) + (tr_fin t - tr_ini t)) ie r))).
        { destruct (EN ie r ltac:(rewrite P3; exact Hi) ltac:(rewrite P4; exact Hr)) as (_ & I1). unfold matrix in *. rewrite P4, QP in I1. rewrite C4, C2. rewrite P2 in *. exact I1. }
        destruct (basis_of (o_basis (q_opts s))); cbn [back]; try exact I1; apply evolve_meq, I1.
  - assert (OB : s0' = out_obj (exec e c s)) by (rewrite E; reflexivity).
    destruct G as [G|(I & ->)].
    2:{ destruct (init_cases e c s W I) as [X|(t1 & s1 & _ & X & _)]; rewrite X in E; [|discriminate E]. injection E as <- _. apply IH; assumption. }
    assert (I : is_init c = false) by (destruct c; try reflexivity; discriminate G).
    assert (P : is_param c = false) by (destruct c; try reflexivity; discriminate G).
    assert (V : is_evolve c = false) by (destruct c; try reflexivity; discriminate G).
    assert (C : core s0' = core s).
    { pose proof (core_exec e c I P s) as K. rewrite E in K. exact K. }
    assert (Q : q_sq s0' = q_sq s) by (rewrite OB; apply sq_frame; assumption).
    assert (BB : o_basis (q_opts s0') = o_basis (q_opts s)).
    { rewrite OB. destruct (is_opt c) eqn:OP; [|rewrite opts_frame by assumption; reflexivity].
      destruct c; try discriminate OP; try discriminate G; cbn [exec];
        unfold set_tau, set_gr, set_osc, set_pos, set_const, set_scale, set_sources, read, modify, throw;
        repeat match goal with |- context [if ?b then _ else _] => destruct b end; reflexivity. }
    apply (on_voyage_frame s s0' t0 b v gs C Q BB); [congruence|].
    unfold core in C. injection C as _ C2 _ _ _ _ _ _ _ _ _. rewrite C2 in OO, SU. apply IH; assumption.
Qed.
End Life.
