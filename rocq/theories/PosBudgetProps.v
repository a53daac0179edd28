(** C91: the balance of neutrinos with all secondaries: neutral currents, tau regeneration and the Glashow resonance. *)
From Coq Require Import Reals List Arith Bool Lia Lra.
From Verif Require Import Err CMatrix FlavorModel FlavorProofs FlavorProps AvgProofs.
From Verif Require Import TauModel XsModel XsProofs IntModel IntProofs IntLayoutProofs IntProps SuperModel SuperProofs SuperProps PosProofs PosProps.
Import ListNotations.
Local Open Scope R_scope.

(** ** What one interaction at node [e2] gives back, weighed with [w] *)
Section Shares.
Variables (c : iconf) (t : itables) (w : nat -> R).
(** The spectrum of a neutral current interaction. *)
Definition nc_share (r f e2 : nat) : R :=
  c_delE c (e2 - 1) * rsum 0 e2 (fun e => w e * rsum 0 (length (c_dens c)) (fun g => nth g (c_frac c) 0 * t_dNC t g r f e2 e)).
(** The decay of a tau of node [et]: a tau neutrino of its kind, an electron and a muon neutrino of the other. *)
Definition decay_weight (r et : nat) : R := rsum 0 et (fun e => w e * (t_tall t r et e + 2 * t_tlep t r et e)).
Definition tau_share (r e2 : nat) : R :=
  c_delE c (e2 - 1) * rsum 0 e2 (fun et => rsum 0 (length (c_dens c)) (fun g => nth g (c_frac c) 0 * t_dCC t g r 2 e2 et) * c_delE c (et - 1) * decay_weight r et).
(** The spectrum of a resonant interaction, for each of three flavours. *)
Definition gr_share (e2 : nat) : R := c_delE c (e2 - 1) * (3 * rsum 0 e2 (fun e => w e * t_dGR t e2 e)).
(** Interactions per length. *)
Definition nc_rate (r f e : nat) : R := rsum 0 (length (c_dens c)) (fun g => nth g (c_dens c) 0 * t_sNC t g r f e).
Definition cc_rate (r f e : nat) : R := rsum 0 (length (c_dens c)) (fun g => nth g (c_dens c) 0 * t_sCC t g r f e).
Definition gr_rate (e : nat) : R := (if Nat.eqb (length (c_dens c)) 1 then c_ye c * nth 0 (c_dens c) 0 else nth 0 (c_dens c) 0) * t_sGR t e.
(** What is lost per neutrino: the weight of those that interact, less what comes back. *)
Definition drain (r f e : nat) : R :=
  nc_rate r f e * (w e - nc_share r f e)
  + cc_rate r f e * (w e - (if c_tau c && Nat.eqb f 2 then tau_share r e else 0))
  + (if c_gr c && is_anti (c_nt c) r && Nat.eqb f 0 then gr_rate e * (w e - gr_share e) else 0).
End Shares.

Lemma rsum3 f : rsum 0 3 f = f 0%nat + f 1%nat + f 2%nat.
Proof. rewrite !rsum_first by lia. rewrite rsum_nil by lia. ring. Qed.
Lemma rsum2 f : rsum 0 2 f = f 0%nat + f 1%nat.
Proof. rewrite !rsum_first by lia. rewrite rsum_nil by lia. ring. Qed.

Section Sums.
Variables (c : iconf) (t : itables) (old : istate) (flux : nat -> nat -> nat -> R) (w : nat -> R).
Let s := update_lengths c t old.
Hypothesis Hs : shaped c.
Hypothesis Hd : c_dens c <> [].

Lemma len_nc r f e : s_NC s r f e = nc_rate c t r f e.
Proof. unfold s. rewrite s_NC_eq by exact Hd. apply rsum_ext. intros; ring. Qed.
Lemma len_cc r f e : s_CC s r f e = cc_rate c t r f e.
Proof. unfold s. rewrite s_CC_eq by exact Hd. apply rsum_ext. intros; ring. Qed.
Lemma len_gr e : glashow_on c = true -> (e < c_ne c)%nat -> s_GR s e = gr_rate c t e.
Proof. intros G He. unfold s. rewrite s_GR_eq by assumption. unfold num_e, gr_rate. destruct (Nat.eqb _ 1); ring. Qed.

Lemma nc_sum r f : rsum 0 (c_ne c) (fun e => w e * nc_source c t s flux r f e) =
  rsum 0 (c_ne c) (fun e2 => flux r f e2 * (nc_rate c t r f e2 * nc_share c t w r f e2)).
Proof.
  rewrite (rsum_ext 0 (c_ne c) _ (fun e => rsum (S e) (c_ne c) (fun e2 => flux r f e2 * nc_rate c t r f e2 * c_delE c (e2 - 1) *
    (w e * rsum 0 (length (c_dens c)) (fun g => nth g (c_frac c) 0 * t_dNC t g r f e2 e))))).
  - rewrite (rsum_tri (c_ne c) (fun e e2 => flux r f e2 * nc_rate c t r f e2 * c_delE c (e2 - 1) * (w e * rsum 0 (length (c_dens c)) (fun g => nth g (c_frac c) 0 * t_dNC t g r f e2 e)))).
    apply rsum_ext. intros e2 _. rewrite rsum_scal. unfold nc_share. ring.
  - intros e _. unfold nc_source. rewrite <- rsum_scal. apply rsum_ext. intros e2 _. rewrite len_nc.
    match goal with |- _ = ?a * (?b * ?x) => replace (a * (b * x)) with ((a * b) * x) by ring end.
    rewrite <- !rsum_scal. apply rsum_ext. intros g _. unfold fr. ring.
Qed.

Lemma tau_sum (k : nat -> nat -> R) r : c_tau c = true -> tau_fair c flux -> (r < 2)%nat ->
  rsum 0 (c_ne c) (fun e => w e * rsum (S e) (c_ne c) (fun et => tau_flux c t s flux r et * k et e)) =
  rsum 0 (c_ne c) (fun e2 => flux r 2%nat e2 * (cc_rate c t r 2 e2 * (c_delE c (e2 - 1) *
    rsum 0 e2 (fun et => rsum 0 (length (c_dens c)) (fun g => nth g (c_frac c) 0 * t_dCC t g r 2 e2 et) * c_delE c (et - 1) * rsum 0 et (fun e => w e * k et e))))).
Proof.
  intros T F Hr.
  rewrite (rsum_ext 0 (c_ne c) _ (fun e => rsum (S e) (c_ne c) (fun et => tau_flux c t s flux r et * (w e * k et e)))).
  2:{ intros e _. rewrite <- rsum_scal. apply rsum_ext. intros; ring. }
  rewrite (rsum_tri (c_ne c) (fun e et => tau_flux c t s flux r et * (w e * k et e))).
  rewrite (rsum_ext 0 (c_ne c) _ (fun et => rsum (S et) (c_ne c) (fun e2 => flux r 2%nat e2 * cc_rate c t r 2 e2 * c_delE c (e2 - 1) *
    (rsum 0 (length (c_dens c)) (fun g => nth g (c_frac c) 0 * t_dCC t g r 2 e2 et) * c_delE c (et - 1) * rsum 0 et (fun e => w e * k et e))))).
  - rewrite (rsum_tri (c_ne c) (fun et e2 => flux r 2%nat e2 * cc_rate c t r 2 e2 * c_delE c (e2 - 1) *
      (rsum 0 (length (c_dens c)) (fun g => nth g (c_frac c) 0 * t_dCC t g r 2 e2 et) * c_delE c (et - 1) * rsum 0 et (fun e => w e * k et e)))).
    apply rsum_ext. intros e2 _. rewrite rsum_scal. ring.
  - intros et _. rewrite rsum_scal, tau_flux_all by assumption. set (V := rsum 0 et (fun e => w e * k et e)). rewrite Rmult_comm, <- rsum_scal.
    apply rsum_ext. intros e2 _. rewrite len_cc.
    match goal with |- _ = ?a * (?x * ?b * ?v) => replace (a * (x * b * v)) with ((a * b * v) * x) by ring end.
    rewrite <- !rsum_scal. apply rsum_ext. intros g _. unfold fr. ring.
Qed.

Lemma gr_sum r : glashow_on c = true -> rsum 0 (c_ne c) (fun e => w e * (3 * gr_source c t s flux r e)) =
  rsum 0 (c_ne c) (fun e2 => flux r 0%nat e2 * (gr_rate c t e2 * gr_share c t w e2)).
Proof.
  intro G.
  rewrite (rsum_ext 0 (c_ne c) _ (fun e => rsum (S e) (c_ne c) (fun e2 => flux r 0%nat e2 * gr_rate c t e2 * c_delE c (e2 - 1) * 3 * (w e * t_dGR t e2 e)))).
  - rewrite (rsum_tri (c_ne c) (fun e e2 => flux r 0%nat e2 * gr_rate c t e2 * c_delE c (e2 - 1) * 3 * (w e * t_dGR t e2 e))).
    apply rsum_ext. intros e2 _. rewrite rsum_scal. unfold gr_share. ring.
  - intros e He. unfold gr_source. rewrite <- !rsum_scal. apply rsum_ext. intros e2 He2. rewrite len_gr by (assumption || lia). ring.
Qed.

(** Everything that comes back, counted where it was lost. *)
Lemma returns : (c_tau c = true -> tau_fair c flux) ->
  rsum 0 (c_nrhos c) (fun r => rsum 0 (c_ne c) (fun e => w e * rsum 0 3 (fun f => factor c t s flux r f e))) =
  rsum 0 (c_nrhos c) (fun r => rsum 0 3 (fun f => rsum 0 (c_ne c) (fun e => flux r f e *
    (nc_rate c t r f e * nc_share c t w r f e + (if c_tau c && Nat.eqb f 2 then cc_rate c t r f e * tau_share c t w r e else 0)
     + (if c_gr c && is_anti (c_nt c) r && Nat.eqb f 0 then gr_rate c t e * gr_share c t w e else 0))))).
Proof.
  intro F.
  set (N := fun r => rsum 0 3 (fun f => rsum 0 (c_ne c) (fun e => w e * nc_source c t s flux r f e))).
  set (A := fun r => rsum 0 (c_ne c) (fun e => w e * had_source c t s flux r e)).
  set (B := fun r => rsum 0 (c_ne c) (fun e => w e * lep_source c t s flux r e)).
  set (G := fun r => if c_gr c && is_anti (c_nt c) r then rsum 0 (c_ne c) (fun e => w e * (3 * gr_source c t s flux r e)) else 0).
  rewrite (rsum_ext 0 (c_nrhos c) _ (fun r => N r + (if c_tau c then A r + 2 * B (1 - r)%nat else 0) + G r)).
  2:{ intros r Hr. unfold N, G, A, B. rewrite rsum3.
      rewrite (rsum_ext 0 (c_ne c) _ (fun e => (w e * nc_source c t s flux r 0 e + w e * nc_source c t s flux r 1 e + w e * nc_source c t s flux r 2 e)
        + (if c_tau c then w e * had_source c t s flux r e + 2 * (w e * lep_source c t s flux (1 - r) e) else 0)
        + (if c_gr c && is_anti (c_nt c) r then w e * (3 * gr_source c t s flux r e) else 0))).
      - rewrite !rsum_plus. destruct (c_tau c), (c_gr c && is_anti (c_nt c) r)%bool; rewrite ?rsum_plus, ?rsum_scal, ?(rsum_zero 0 (c_ne c) (fun _ => 0)) by reflexivity; reflexivity.
      - intros e He. rewrite rsum3. unfold factor. cbn [Nat.eqb]. destruct (c_tau c), (c_gr c && is_anti (c_nt c) r)%bool; ring. }
  rewrite !rsum_plus.
  assert (T : rsum 0 (c_nrhos c) (fun r => if c_tau c then A r + 2 * B (1 - r)%nat else 0) = rsum 0 (c_nrhos c) (fun r => if c_tau c then A r + 2 * B r else 0)).
  { destruct (c_tau c) eqn:Tau; [|reflexivity]. destruct Hs as (Hb & _ & Ht & _). rewrite (Hb (Ht Tau)), !rsum2. cbn [Nat.sub]. ring. }
  rewrite T, <- !rsum_plus. apply rsum_ext. intros r Hr. pose proof (shaped_rho2 c r Hs ltac:(lia)) as R2.
  unfold N, G. rewrite !rsum3. cbn [Nat.eqb]. rewrite !andb_true_r, !andb_false_r, !nc_sum.
  assert (TA : (if c_tau c then A r + 2 * B r else 0) = rsum 0 (c_ne c) (fun e => flux r 2%nat e * (if c_tau c then cc_rate c t r 2 e * tau_share c t w r e else 0))).
  { destruct (c_tau c) eqn:Tau; [|symmetry; apply rsum_zero; intros; ring]. unfold A, B, had_source, lep_source.
    rewrite !tau_sum by (try apply F; assumption || reflexivity). rewrite <- rsum_scal, <- rsum_plus. apply rsum_ext. intros e _. unfold tau_share.
    rewrite (rsum_ext 0 e (fun et => _ * _ * decay_weight t w r et) (fun et => rsum 0 (length (c_dens c)) (fun g => nth g (c_frac c) 0 * t_dCC t g r 2 e et) * c_delE c (et - 1) * rsum 0 et (fun e => w e * t_tall t r et e)
      + 2 * (rsum 0 (length (c_dens c)) (fun g => nth g (c_frac c) 0 * t_dCC t g r 2 e et) * c_delE c (et - 1) * rsum 0 et (fun e => w e * t_tlep t r et e)))).
    - rewrite rsum_plus, rsum_scal. ring.
    - intros et _. unfold decay_weight. rewrite (rsum_ext 0 et (fun e => w e * (_ + _)) (fun e => w e * t_tall t r et e + 2 * (w e * t_tlep t r et e))) by (intros; ring).
      rewrite rsum_plus, rsum_scal. ring. }
  rewrite TA.
  assert (GA : (if c_gr c && is_anti (c_nt c) r then rsum 0 (c_ne c) (fun e => w e * (3 * gr_source c t s flux r e)) else 0)
    = rsum 0 (c_ne c) (fun e => flux r 0%nat e * (if c_gr c && is_anti (c_nt c) r then gr_rate c t e * gr_share c t w e else 0))).
  { destruct (c_gr c && is_anti (c_nt c) r)%bool eqn:Q; [|symmetry; apply rsum_zero; intros; ring]. apply gr_sum.
    destruct Hs as (Hb & Hn & _). rewrite <- glashow_rho in Q by (assumption || lia). apply andb_true_iff in Q. apply Q. }
  rewrite GA, <- !rsum_plus. apply rsum_ext. intros e _. ring.
Qed.
End Sums.

Section Balance.
Variable n : nat.
Variable mat_of : vec -> mat.
Variable dot : vec -> vec -> R.
Hypothesis su : su_repr n mat_of dot.
Variable osc : bool.
Variable tb : itables.
Variables rne ne nr : nat.
Variables t0 t1 : R.
Variable Hm : R -> nat -> nat -> mat.
Variable proj : R -> nat -> nat -> nat -> vec.
Variable c : R -> iconf.
Hypothesis ok : setup n mat_of tb rne ne nr t0 t1 Hm proj c.

(** Neutrinos of both kinds, all nodes and all flavours, weighed with [w]. *)
Definition total (w : nat -> R) (st : nat -> nat -> vec) : R := rsum 0 nr (fun r => rsum 0 ne (fun e => w e * re (trace n (mat_of (st e r))))).

(** *** The balance: the total changes by what interactions drain, and by nothing else *)
Theorem c91_balance w old fold st : t0 <= t1 -> (forall s, t0 <= s <= t1 -> c_src (c s) = false) ->
  (forall s r f e, t0 <= s <= t1 -> (r < nr)%nat -> (f < 3)%nat -> (e < ne)%nat -> re (trace n (mat_of (proj s r f e))) = 1 /\ (osc = false -> proj s r f e = proj s r f 0%nat)) ->
  (forall s e r, t0 <= s <= t1 -> (e < ne)%nat -> (r < nr)%nat ->
     solves_at n mat_of dot true osc tb rne (Hm s e r) (proj s) (c s) (old s) (fold s) st s e r) ->
  (forall e r, (e < ne)%nat -> (r < nr)%nat -> psd n (mat_of (st t0 e r))) ->
  forall v, t0 <= v <= t1 -> derivable_pt_lim (fun u => total w (st u)) v
    (- rsum 0 nr (fun r => rsum 0 3 (fun f => rsum 0 ne (fun e => dot (proj v r f e) (st v e r) * drain (c v) tb w r f e)))).
Proof.
  intros L Off Tr D I v Vt.
  assert (Src : good_sources n mat_of ne nr t0 t1 proj c) by (intros u r2 f e U Sr; rewrite (Off u U) in Sr; discriminate).
  destruct (st_conf _ _ _ _ _ _ _ _ _ _ _ ok v Vt) as (Hs & Hd & _ & Ene & Enr). pose proof (st_pad _ _ _ _ _ _ _ _ _ _ _ ok) as Hp.
  pose proof (Off v Vt) as Osrc.
  set (dr := rsum 0 nr (fun r => rsum 0 ne (fun e => w e * re (trace n (rhs n (Hm v e r) (mat_of (absorption true tb (proj v) (c v) (old v) e r))
    (mat_of (regeneration dot true osc tb rne (proj v) (st v) (c v) (old v) (fold v) e r)) (mat_of (st v e r))))))).
  match goal with |- derivable_pt_lim _ _ ?z => assert (E : dr = z) end.
  - set (fl := flux_of osc dot (proj v) (st v)).
    assert (Fl : forall r f e, (r < nr)%nat -> (f < 3)%nat -> (e < ne)%nat -> fl r f e = dot (proj v r f e) (st v e r)).
    { intros r f e Hr Hf He. unfold fl. rewrite flux_of_dot. destruct osc eqn:Os; [reflexivity|]. rewrite (proj2 (Tr v r f e Vt Hr Hf He) eq_refl). reflexivity. }
    assert (T : forall r e, (r < nr)%nat -> (e < ne)%nat -> re (trace n (rhs n (Hm v e r) (mat_of (absorption true tb (proj v) (c v) (old v) e r))
        (mat_of (regeneration dot true osc tb rne (proj v) (st v) (c v) (old v) (fold v) e r)) (mat_of (st v e r)))) =
      rsum 0 3 (fun f => factor (c v) tb (update_lengths (c v) tb (old v)) fl r f e) +
      rsum 0 3 (fun f => -1 * (fl r f e * (nc_rate (c v) tb r f e + cc_rate (c v) tb r f e + (if c_gr (c v) && is_anti (c_nt (c v)) r && Nat.eqb f 0 then gr_rate (c v) tb e else 0))))).
    { intros r e Hr He. rewrite trace_rhs, Rplus_comm. f_equal.
      - set (u := fun k => rsum 0 (0 + 3) (fun f => factor (c v) tb (update_lengths (c v) tb (old v)) fl r f e * proj v r f (if osc then e else 0%nat) k)).
        replace (re (trace n (mat_of (regeneration dot true osc tb rne (proj v) (st v) (c v) (old v) (fold v) e r)))) with (re (trace n (mat_of u))).
        + unfold u. rewrite (comb_functional n mat_of dot (fun A => re (trace n A)) su).
          * cbv beta. rewrite Nat.add_0_l. apply rsum_ext. intros f Hf.
            replace (re (trace n (mat_of (fun k => proj v r f (if osc then e else 0%nat) k)))) with 1 by (symmetry; apply (Tr v r f (if osc then e else 0%nat) Vt); [lia|lia|destruct osc; lia]).
            apply Rmult_1_r.
          * intros A B Eq. f_equal. apply trace_meq, Eq.
          * intros A B. rewrite trace_plus. reflexivity.
          * intros x A. rewrite trace_scale. cbn. ring.
        + f_equal. apply trace_meq. apply (su_ext _ _ _ su). intros k _. rewrite regeneration_eq by (rewrite ?Ene, ?Enr; assumption || lia). rewrite Osrc. unfold u. rewrite Nat.add_0_l. fold fl. ring.
      - set (g := fun f => 1 / 2 * (nc_rate (c v) tb r f e + cc_rate (c v) tb r f e + (if c_gr (c v) && is_anti (c_nt (c v)) r && Nat.eqb f 0 then gr_rate (c v) tb e else 0))).
        replace (expected n (mat_of (st v e r)) (mat_of (absorption true tb (proj v) (c v) (old v) e r))) with
          (expected n (mat_of (st v e r)) (mat_of (fun k => rsum 0 (0 + 3) (fun f => g f * proj v r f e k)))).
        + destruct (expected_lin n (mat_of (st v e r))) as (F1 & F2 & F3).
          rewrite (comb_functional n mat_of dot (expected n (mat_of (st v e r))) su F1 F2 F3). rewrite Nat.add_0_l, <- rsum_scal. apply rsum_ext. intros f Hf.
          unfold expected. rewrite <- (su_dot _ _ _ su). rewrite Fl by lia. unfold g. change (fun k => proj v r f e k) with (proj v r f e). lra.
        + apply expected_lin. apply (su_ext _ _ _ su). intros k _. unfold absorption. rewrite c65_absorption by (rewrite ?Ene, ?Enr; assumption).
          apply rsum_ext. intros f Hf. unfold g, nc_rate, cc_rate, gr_rate. f_equal. f_equal. f_equal. rewrite <- rsum_plus. apply rsum_ext. intros q _. ring. }
    assert (Ret := returns (c v) tb (old v) fl w Hs Hd). rewrite Ene, Enr in Ret.
    specialize (Ret (fun _ => c91_taus n mat_of dot su true osc tb rne ne nr t0 t1 Hm proj c ok old fold st L Src D I v Vt)).
    unfold dr.
    rewrite (rsum_ext 0 nr _ (fun r => rsum 0 ne (fun e => w e * rsum 0 3 (fun f => factor (c v) tb (update_lengths (c v) tb (old v)) fl r f e))
      + rsum 0 3 (fun f => rsum 0 ne (fun e => w e * (-1 * (fl r f e * (nc_rate (c v) tb r f e + cc_rate (c v) tb r f e + (if c_gr (c v) && is_anti (c_nt (c v)) r && Nat.eqb f 0 then gr_rate (c v) tb e else 0)))))))).
    2:{ intros r Hr. rewrite <- (rsum_swap' 0 ne 0 3), <- rsum_plus. apply rsum_ext. intros e He. rewrite T by lia. rewrite (rsum_scal 0 3 _ (w e)). ring. }
    rewrite rsum_plus, Ret, <- rsum_plus.
    replace (- rsum 0 nr (fun r => rsum 0 3 (fun f => rsum 0 ne (fun e => dot (proj v r f e) (st v e r) * drain (c v) tb w r f e)))) with
      (-1 * rsum 0 nr (fun r => rsum 0 3 (fun f => rsum 0 ne (fun e => dot (proj v r f e) (st v e r) * drain (c v) tb w r f e)))) by ring.
    rewrite <- rsum_scal. apply rsum_ext. intros r Hr. rewrite <- rsum_scal, <- rsum_plus. apply rsum_ext. intros f Hf. rewrite <- rsum_scal, <- rsum_plus. apply rsum_ext. intros e He.
    rewrite Fl by lia. unfold drain. destruct (c_tau (c v) && Nat.eqb f 2)%bool, (c_gr (c v) && is_anti (c_nt (c v)) r && Nat.eqb f 0)%bool; ring.
  - rewrite <- E. unfold total, dr.
    apply (rsum_deriv' 0 nr (fun r u => rsum 0 ne (fun e => w e * re (trace n (mat_of (st u e r)))))). intros r Hr.
    apply (rsum_deriv' 0 ne (fun e u => w e * re (trace n (mat_of (st u e r))))). intros e He.
    apply (derivable_pt_lim_scal (fun u => re (trace n (mat_of (st u e r))))). apply (trace_deriv n (fun u => mat_of (st u e r))). apply D; [exact Vt|lia|lia].
Qed.

(** *** If no interaction gives back more than went in, the total never grows, with all secondaries on *)
Theorem c91_budget w old fold st : t0 <= t1 -> (forall e, 0 <= w e) -> (forall s, t0 <= s <= t1 -> c_src (c s) = false) ->
  (forall s r f e, t0 <= s <= t1 -> (r < nr)%nat -> (f < 3)%nat -> (e < ne)%nat -> re (trace n (mat_of (proj s r f e))) = 1 /\ (osc = false -> proj s r f e = proj s r f 0%nat)) ->
  (forall s r f e, t0 <= s <= t1 -> (r < nr)%nat -> (f < 3)%nat -> (e < ne)%nat -> nc_share (c s) tb w r f e <= w e /\
     (c_tau (c s) = true -> tau_share (c s) tb w r e <= w e) /\ (c_gr (c s) = true -> gr_share (c s) tb w e <= w e)) ->
  (forall s e r, t0 <= s <= t1 -> (e < ne)%nat -> (r < nr)%nat ->
     solves_at n mat_of dot true osc tb rne (Hm s e r) (proj s) (c s) (old s) (fold s) st s e r) ->
  (forall e r, (e < ne)%nat -> (r < nr)%nat -> psd n (mat_of (st t0 e r))) ->
  forall s, t0 <= s <= t1 -> total w (st s) <= total w (st t0).
Proof.
  intros L W0 Off Tr Sh D I s HS. destruct (Req_dec t0 s) as [->|N]; [lra|].
  assert (Src : good_sources n mat_of ne nr t0 t1 proj c) by (intros u r2 f e U Sr; rewrite (Off u U) in Sr; discriminate).
  destruct (MVT_cor2 (fun u => total w (st u)) (fun v => - rsum 0 nr (fun r => rsum 0 3 (fun f => rsum 0 ne (fun e => dot (proj v r f e) (st v e r) * drain (c v) tb w r f e)))) t0 s) as (v & E & V).
  - lra.
  - intros u U. apply (c91_balance w old fold st L Off Tr D I). lra.
  - cbv beta in E. assert (Vt : t0 <= v <= t1) by lra.
    match type of E with _ = - ?z * _ => assert (Z : 0 <= z); [|nra] end.
    destruct (st_conf _ _ _ _ _ _ _ _ _ _ _ ok v Vt) as (Hs & Hd & (Dn & Fr & Y & Wd) & Ene & Enr).
    destruct (st_tab _ _ _ _ _ _ _ _ _ _ _ ok) as [N1 N2 N3 N4 N5 N6 N7 N8].
    apply rsum_nonneg. intros r Hr. apply rsum_nonneg. intros f Hf. apply rsum_nonneg. intros e He.
    apply Rmult_le_pos.
    + apply (c91_contents n mat_of dot su true osc tb rne ne nr t0 t1 Hm proj c ok old fold st _ L Src D I); try assumption; try lia.
      apply (st_proj _ _ _ _ _ _ _ _ _ _ _ ok); assumption || lia.
    + destruct (Sh v r f e Vt ltac:(lia) ltac:(lia) ltac:(lia)) as (S1 & S2 & S3). pose proof (W0 e) as We. unfold drain.
      apply Rplus_le_le_0_compat; [apply Rplus_le_le_0_compat|].
      * apply Rmult_le_pos; [apply rsum_nonneg; intros; apply Rmult_le_pos; auto|lra].
      * apply Rmult_le_pos; [apply rsum_nonneg; intros; apply Rmult_le_pos; auto|]. destruct (c_tau (c v)); cbn [andb]; [|lra]. specialize (S2 eq_refl). destruct (Nat.eqb f 2); lra.
      * destruct (c_gr (c v)); cbn [andb]; [|lra]. specialize (S3 eq_refl). destruct (is_anti (c_nt (c v)) r && Nat.eqb f 0)%bool; [|lra].
        apply Rmult_le_pos; [|lra]. unfold gr_rate. apply Rmult_le_pos; [destruct (Nat.eqb _ 1); [apply Rmult_le_pos|]; auto; lra|auto].
Qed.
End Balance.
Print Assumptions c91_balance. Print Assumptions c91_budget.

(** A case: both kinds, three nodes, tau regeneration and the resonance on; neutrinos at the lowest node, which give nothing back, *)
Definition all_c (_ : R) : iconf := ex_c Both 2 true true false [1] [1].
Definition low_rate (r k : nat) : R := if (Nat.eqb r 1 && Nat.eqb k 0)%bool then 5 / 2 else 2.
Definition low_st (s : R) (e r : nat) : vec := fun k => if Nat.eqb e 0 then exp (- (low_rate r k * s)) else 0.
Definition low_w (e : nat) : R := match e with 0%nat => 1 | 1%nat => 10 | _ => 100 end.
Lemma all_shaped s : shaped (all_c s).
Proof. unfold shaped; cbn; repeat split; congruence || lia. Qed.
Lemma all_setup t0 t1 : setup 3 diag ex_t 4 3 2 t0 t1 (fun _ _ _ => mzero) (fun _ => ex_proj) all_c.
Proof.
  destruct (two_setup t0 t1) as [A _ _ P _]. constructor.
  - exact A.
  - lia.
  - intros s _. split; [apply all_shaped|]. split; [discriminate|].
    split; [|split; reflexivity]. unfold nonneg_conf. cbn [all_c ex_c c_dens c_frac c_ye c_delE]. repeat split; try lra; intro g; try lra; destruct g as [|[|g]]; cbn; lra.
  - intros s r f e S _ Hf _. apply (P s 0%nat f 0%nat); lra || lia.
  - intros s r e _ _ _ i j _ _. apply Ceq; cbn; ring.
Qed.
Lemma low_solves s old fold e r : (e < 3)%nat -> (r < 2)%nat -> solves_at 3 diag ex_dot true true ex_t 4 mzero ex_proj (all_c s) old fold low_st s e r.
Proof.
  intros He Hr. pose proof (all_shaped s) as Hs.
  assert (A : forall k, (k < 3)%nat -> absorption true ex_t ex_proj (all_c s) old e r k = low_rate r k / 2).
  { intros k K. unfold absorption. rewrite c65_absorption by (exact Hs || discriminate || (cbn; lia)).
    unfold rsum, ex_proj, low_rate. destruct r as [|[|r]]; [| |lia]; (destruct k as [|[|[|k]]]; [| | |lia]); cbn; lra. }
  assert (F0 : forall r f e2, (e < e2)%nat -> (f < 3)%nat -> flux_of true ex_dot ex_proj (low_st s) r f e2 = 0).
  { intros r2 f e2 H2 Hf. unfold flux_of, fluxe, ex_dot, ex_proj, low_st. destruct e2; [lia|]. cbn [Nat.eqb]. cbn. ring. }
  assert (T0 : forall r et, (e < et)%nat -> tau_flux (all_c s) ex_t (update_lengths (all_c s) ex_t old) (flux_of true ex_dot ex_proj (low_st s)) r et = 0).
  { intros r2 et H2. unfold tau_flux. apply rsum_zero. intros en Hen. destruct (tau_skip _ _); [reflexivity|]. apply rsum_zero. intros g _. rewrite F0 by lia. ring. }
  assert (B : forall k, regeneration ex_dot true true ex_t 4 ex_proj (low_st s) (all_c s) old fold e r k = 0).
  { intros k. rewrite regeneration_eq by (exact Hs || (cbn; lia)). cbn [all_c ex_c c_src]. rewrite Rplus_0_r. apply rsum_zero. intros f Hf.
    assert (Z : factor (all_c s) ex_t (update_lengths (all_c s) ex_t old) (flux_of true ex_dot ex_proj (low_st s)) r f e = 0); [|rewrite Z; ring].
    unfold factor.
    assert (N0 : nc_source (all_c s) ex_t (update_lengths (all_c s) ex_t old) (flux_of true ex_dot ex_proj (low_st s)) r f e = 0).
    { apply rsum_zero. intros e2 H2. apply rsum_zero. intros g _. rewrite F0 by lia. ring. }
    assert (H0 : forall r, had_source (all_c s) ex_t (update_lengths (all_c s) ex_t old) (flux_of true ex_dot ex_proj (low_st s)) r e = 0).
    { intro r2. apply rsum_zero. intros e2 H2. rewrite T0 by lia. ring. }
    assert (L0 : forall r, lep_source (all_c s) ex_t (update_lengths (all_c s) ex_t old) (flux_of true ex_dot ex_proj (low_st s)) r e = 0).
    { intro r2. apply rsum_zero. intros e2 H2. rewrite T0 by lia. ring. }
    assert (G0 : gr_source (all_c s) ex_t (update_lengths (all_c s) ex_t old) (flux_of true ex_dot ex_proj (low_st s)) r e = 0).
    { apply rsum_zero. intros e2 H2. rewrite F0 by lia. ring. }
    rewrite N0, H0, L0, G0. destruct (c_tau _), (Nat.eqb f 2), (c_gr _ && _)%bool; ring. }
  intros i j Hi Hj.
  set (v := low_st s e r).
  set (d := if Nat.eqb i j then - low_rate r i * v i else 0).
  assert (E : rhs 3 mzero (diag (absorption true ex_t ex_proj (all_c s) old e r))
    (diag (regeneration ex_dot true true ex_t 4 ex_proj (low_st s) (all_c s) old fold e r)) (diag v) i j = rtc d).
  { unfold d, rhs, coherent, anti, mplus, mscale.
    assert (M3 : diag (regeneration ex_dot true true ex_t 4 ex_proj (low_st s) (all_c s) old fold e r) i j = c0) by (unfold diag; rewrite (B i); destruct (Nat.eqb i j); reflexivity).
    rewrite M3.
    assert (M1 : mmult 3 (diag (absorption true ex_t ex_proj (all_c s) old e r)) (diag v) i j = cmult (rtc (low_rate r i / 2)) (diag v i j)).
    { unfold mmult. rewrite (csum_single 3 i) by (assumption || (intros q _ N; unfold diag; rewrite (proj2 (Nat.eqb_neq i q)) by congruence; apply Ceq; cbn; ring)).
      unfold diag at 1. rewrite Nat.eqb_refl, (A i Hi). reflexivity. }
    assert (M2 : mmult 3 (diag v) (diag (absorption true ex_t ex_proj (all_c s) old e r)) i j = cmult (rtc (low_rate r j / 2)) (diag v i j)).
    { unfold mmult. rewrite (csum_single 3 j) by (assumption || (intros q _ N; unfold diag at 2; rewrite (proj2 (Nat.eqb_neq q j)) by congruence; apply Ceq; cbn; ring)).
      unfold diag at 2. rewrite Nat.eqb_refl, (A j Hj). apply Ceq; cbn; ring. }
    rewrite M1, M2. unfold diag.
    replace (mmult 3 mzero _ i j) with c0 by (symmetry; apply csum_zero; intros; apply Ceq; cbn; ring).
    replace (mmult 3 _ mzero i j) with c0 by (symmetry; apply csum_zero; intros; apply Ceq; cbn; ring).
    destruct (Nat.eqb_spec i j) as [->|]; apply Ceq; cbn; lra. }
  fold v. rewrite E. unfold d, diag. destruct (Nat.eqb i j); cbn; split; try apply (derivable_pt_lim_const 0).
  unfold v, low_st. destruct (Nat.eqb e 0).
  - replace (- low_rate r i * exp (- (low_rate r i * s))) with (exp (- (low_rate r i * s)) * (- low_rate r i)) by ring.
    apply (derivable_pt_lim_comp (fun u => - (low_rate r i * u)) exp); [|apply derivable_pt_lim_exp].
    pose proof (derivable_pt_lim_opp _ _ _ (derivable_pt_lim_scal id (low_rate r i) s 1 (derivable_pt_lim_id s))) as D. rewrite Rmult_1_r in D. exact D.
  - replace (- low_rate r i * 0) with 0 by ring. apply (derivable_pt_lim_const 0).
Qed.
(** and weights under which all the shares are within the budget. *)
Example c91_budget_case : setup 3 diag ex_t 4 3 2 0 1 (fun _ _ _ => mzero) (fun _ => ex_proj) all_c /\
  (forall r f e, (f < 3)%nat -> re (trace 3 (diag (ex_proj r f e))) = 1) /\
  (forall s e r old fold, (e < 3)%nat -> (r < 2)%nat -> solves_at 3 diag ex_dot true true ex_t 4 mzero ex_proj (all_c s) old fold low_st s e r) /\
  (forall e r, psd 3 (diag (low_st 0 e r))) /\
  (forall s r f e, (e < 3)%nat -> nc_share (all_c s) ex_t low_w r f e <= low_w e /\ tau_share (all_c s) ex_t low_w r e <= low_w e /\ gr_share (all_c s) ex_t low_w e <= low_w e) /\
  tau_share (all_c 0) ex_t low_w 0 2 = 3 /\ gr_share (all_c 0) ex_t low_w 2 = 33 /\ drain (all_c 0) ex_t low_w 1 0 0 = 5 / 2.
Proof.
  split; [apply all_setup|]. split; [intros r [|[|[|f]]] e Hf; [| | |lia]; unfold trace, diag, ex_proj; cbn; lra|].
  split; [intros; apply low_solves; assumption|].
  split. { intros e r. apply diag_psd. intros k _. unfold low_st. destruct (Nat.eqb e 0); [|lra]. left. apply exp_pos. }
  split.
  { intros s r f [|[|[|e]]] He; [| | |lia]; unfold nc_share, tau_share, gr_share, decay_weight, rsum; cbn; lra. }
  unfold drain, tau_share, gr_share, nc_share, nc_rate, cc_rate, gr_rate, decay_weight, rsum. cbn. repeat split; lra.
Qed.
