(** Lemmas about the loops, sums and layouts of [IntModel]. *)
From Coq Require Import Reals List ZArith Bool Arith Lia Lra.
From Verif Require Import Err TauModel XsModel XsProofs IntModel.
Import ListNotations.
Open Scope R_scope.

(** * Sums *)

Definition rsum (lo hi : nat) (f : nat -> R) : R :=
  fold_right Rplus 0 (map f (seq lo (hi - lo))).

Lemma rsum_nil lo hi f : (hi <= lo)%nat -> rsum lo hi f = 0.
Proof. intro H. unfold rsum. replace (hi - lo)%nat with O by lia. reflexivity. Qed.

Lemma rsum_first lo hi f : (lo < hi)%nat -> rsum lo hi f = f lo + rsum (S lo) hi f.
Proof.
  intro H. unfold rsum. replace (hi - lo)%nat with (S (hi - S lo)) by lia. reflexivity.
Qed.

Lemma rsum_ind (P : nat -> R -> Prop) hi f :
  (forall lo, (hi <= lo)%nat -> P lo 0) ->
  (forall lo s, (lo < hi)%nat -> P (S lo) s -> P lo (f lo + s)) ->
  forall lo, P lo (rsum lo hi f).
Proof.
  intros H0 HS lo.
  remember (hi - lo)%nat as k eqn:Ek. revert lo Ek.
  induction k; intros lo Ek.
  - rewrite rsum_nil by lia. apply H0. lia.
  - rewrite rsum_first by lia. apply HS; [lia|]. apply IHk. lia.
Qed.

Lemma rsum_ext lo hi f g :
  (forall i, (lo <= i < hi)%nat -> f i = g i) -> rsum lo hi f = rsum lo hi g.
Proof.
  intro H. unfold rsum. f_equal. apply map_ext_in. intros i Hi.
  apply in_seq in Hi. apply H. lia.
Qed.

Lemma rsum_zero lo hi f :
  (forall i, (lo <= i < hi)%nat -> f i = 0) -> rsum lo hi f = 0.
Proof.
  intro H. rewrite (rsum_ext lo hi f (fun _ => 0)) by exact H.
  apply (rsum_ind (fun _ s => s = 0)); intros; lra.
Qed.

Lemma rsum_split lo mid hi f :
  (lo <= mid <= hi)%nat -> rsum lo hi f = rsum lo mid f + rsum mid hi f.
Proof.
  intro H.
  remember (mid - lo)%nat as k eqn:Ek. revert lo H Ek.
  induction k; intros lo H Ek.
  - assert (lo = mid) by lia. subst. rewrite (rsum_nil mid mid) by lia. lra.
  - rewrite (rsum_first lo hi), (rsum_first lo mid) by lia.
    rewrite (IHk (S lo)) by lia. lra.
Qed.

Lemma rsum_single lo hi f k :
  (lo <= k < hi)%nat -> (forall i, (lo <= i < hi)%nat -> i <> k -> f i = 0) ->
  rsum lo hi f = f k.
Proof.
  intros Hk H.
  rewrite (rsum_split lo k hi) by lia. rewrite (rsum_first k hi) by lia.
  rewrite (rsum_zero lo k), (rsum_zero (S k) hi); [lra| |];
    intros i Hi; apply H; lia.
Qed.

Lemma rsum_scal lo hi f a : rsum lo hi (fun i => a * f i) = a * rsum lo hi f.
Proof.
  unfold rsum. induction (seq lo (hi - lo)); cbn [map fold_right]; [lra|].
  rewrite IHl. lra.
Qed.

Lemma rsum_plus lo hi f g :
  rsum lo hi (fun i => f i + g i) = rsum lo hi f + rsum lo hi g.
Proof.
  unfold rsum. induction (seq lo (hi - lo)); cbn [map fold_right]; [lra|].
  rewrite IHl. lra.
Qed.

Lemma rsum_nonneg lo hi f :
  (forall i, (lo <= i < hi)%nat -> 0 <= f i) -> 0 <= rsum lo hi f.
Proof.
  intro H.
  assert (G : forall l, (lo <= l)%nat -> 0 <= rsum l hi f).
  { intro l. apply (rsum_ind (fun l s => (lo <= l)%nat -> 0 <= s)); intros; [lra|].
    specialize (H lo0 ltac:(lia)). specialize (H1 ltac:(lia)). lra. }
  apply G. lia.
Qed.

(** * Loops *)

Lemma loop_nil {S : Type} lo hi (body : nat -> S -> S) s :
  (hi <= lo)%nat -> loop lo hi body s = s.
Proof. intro H. unfold loop. replace (hi - lo)%nat with O by lia. reflexivity. Qed.

Lemma loop_first {A : Type} lo hi (body : nat -> A -> A) s :
  (lo < hi)%nat -> loop lo hi body s = loop (S lo) hi body (body lo s).
Proof.
  intro H. unfold loop. replace (hi - lo)%nat with (S (hi - S lo)) by lia. reflexivity.
Qed.

(** A loop whose body adds [g i] to what is observed adds the sum. *)
Lemma loop_acc {A : Type} (obs : A -> R) (g : nat -> R) lo hi (body : nat -> A -> A) s :
  (forall i s, (lo <= i < hi)%nat -> obs (body i s) = obs s + g i) ->
  obs (loop lo hi body s) = obs s + rsum lo hi g.
Proof.
  intro H.
  remember (hi - lo)%nat as k eqn:Ek. revert lo s H Ek.
  induction k; intros lo s H Ek.
  - rewrite loop_nil, rsum_nil by lia. lra.
  - rewrite loop_first, rsum_first by lia. rewrite IHk; [|intros; apply H; lia|lia].
    rewrite H by lia. lra.
Qed.

Lemma loop_inv {A : Type} (P : A -> Prop) lo hi (body : nat -> A -> A) s :
  (forall i s, (lo <= i < hi)%nat -> P s -> P (body i s)) -> P s ->
  P (loop lo hi body s).
Proof.
  intro H.
  remember (hi - lo)%nat as k eqn:Ek. revert lo s H Ek.
  induction k; intros lo s H Ek Hs.
  - rewrite loop_nil by lia. exact Hs.
  - rewrite loop_first by lia. apply IHk; [intros; apply H; [lia|assumption]|lia|].
    apply H; [lia|exact Hs].
Qed.

(** * Entries *)

Lemma add1_obs a i v i' : add1 a i v i' = a i' + (if Nat.eqb i' i then v else 0).
Proof. unfold add1. destruct (Nat.eqb i' i); lra. Qed.
Lemma add2_obs a i j v i' j' :
  add2 a i j v i' j' = a i' j' + (if Nat.eqb i' i && Nat.eqb j' j then v else 0).
Proof. unfold add2. destruct (Nat.eqb i' i && Nat.eqb j' j); lra. Qed.
Lemma add3_obs a i j k v i' j' k' :
  add3 a i j k v i' j' k'
  = a i' j' k' + (if Nat.eqb i' i && Nat.eqb j' j && Nat.eqb k' k then v else 0).
Proof. unfold add3. destruct (Nat.eqb i' i && Nat.eqb j' j && Nat.eqb k' k); lra. Qed.
Lemma addv_obs a i j v i' j' c :
  addv a i j v i' j' c
  = a i' j' c + (if Nat.eqb i' i && Nat.eqb j' j then v c else 0).
Proof. unfold addv, vadd. destruct (Nat.eqb i' i && Nat.eqb j' j); lra. Qed.

Lemma eqb_no i k : i <> k -> Nat.eqb i k = false.
Proof. apply Nat.eqb_neq. Qed.

(** * Interaction lengths *)

(** Written against the stale content: the first target overwrites it. *)
Lemma invlen_sum sigma dens old :
  dens <> [] ->
  invlen sigma dens old
  = rsum 0 (length dens) (fun g => sigma g * nth g dens 0).
Proof.
  intro H. unfold invlen. destruct dens as [|d ds]; [congruence|].
  set (n := length (d :: ds)).
  assert (Hn : (0 < n)%nat) by (unfold n; cbn; lia).
  rewrite loop_first, rsum_first by exact Hn. cbn [lin_acc].
  apply (loop_acc (fun x : R => x)).
  intros i s0 Hi. destruct i; [lia|]. reflexivity.
Qed.

(** * The closed forms of the regeneration terms *)

Section Closed.
  Variable c : iconf.
  Variable t : itables.
  Variable s : istate.
  Variable flux : nat -> nat -> nat -> R.   (* rho flv e *)

  Definition fr (g : nat) : R := nth g (c_frac c) 0.

  (** Neutral current: everything above node [e] feeds it. *)
  Definition nc_source (rho f e : nat) : R :=
    rsum (S e) (c_ne c) (fun e2 =>
      rsum 0 (length (c_dens c)) (fun trg =>
        fr trg * (flux rho f e2 * (s_NC s rho f e2 * c_delE c (e2 - 1)))
        * t_dNC t trg rho f e2 e)).

  (** The flux of taus produced at node [et] by type [rho]. *)
  Definition tau_skip (en : nat) : bool :=
    rle (flux 0%nat 2%nat en) 0 && rle (flux 1%nat 2%nat en) 0.

  Definition tau_flux (rho et : nat) : R :=
    rsum (S et) (c_ne c) (fun en =>
      if tau_skip en then 0 else
      rsum 0 (length (c_dens c)) (fun trg =>
        flux rho 2%nat en * s_CC s rho 2%nat en * c_delE c (en - 1) * fr trg
        * t_dCC t trg rho 2 en et * c_delE c (et - 1))).

  (** What the decays of taus of type [rho] give to nu_tau of the same type and
      to nu_e, nu_mu of the opposite one. *)
  Definition had_source (rho e : nat) : R :=
    rsum (S e) (c_ne c) (fun et => tau_flux rho et * t_tall t rho et e).
  Definition lep_source (rho e : nat) : R :=
    rsum (S e) (c_ne c) (fun et => tau_flux rho et * t_tlep t rho et e).

  Definition gr_source (rho e : nat) : R :=
    rsum (S e) (c_ne c) (fun e2 =>
      flux rho 0%nat e2 * s_GR s e2 * c_delE c (e2 - 1) * t_dGR t e2 e).

  Definition anti_rho : nat := if nt_eqb (c_nt c) Both then 1%nat else 0%nat.

  (** The factor multiplying the projector on flavour [f] at node [e]. *)
  Definition factor (rho f e : nat) : R :=
    nc_source rho f e
    + (if c_tau c then
         if Nat.eqb f 2 then had_source rho e else lep_source (1 - rho) e
       else 0)
    + (if c_gr c && is_anti (c_nt c) rho then gr_source rho e else 0).
End Closed.

(** The inner triangle of all the loops: entries below [e2]. *)
Lemma tri_sum lo e2 e (v : nat -> R) :
  rsum lo e2 (fun e1 => if Nat.eqb e e1 then v e1 else 0)
  = if (lo <=? e)%nat && (e <? e2)%nat then v e else 0.
Proof.
  destruct (Nat.leb_spec lo e); destruct (Nat.ltb_spec e e2); cbn [andb];
    try (apply rsum_zero; intros i Hi; rewrite eqb_no by lia; reflexivity).
  rewrite (rsum_single lo e2 _ e) by (try lia; intros i _ Hne; rewrite eqb_no by lia; reflexivity).
  rewrite Nat.eqb_refl. reflexivity.
Qed.

Lemma above_sum lo hi e (v : nat -> R) :
  (lo <= S e)%nat ->
  rsum lo hi (fun e2 => if (e <? e2)%nat then v e2 else 0) = rsum (S e) hi v.
Proof.
  intro H. destruct (le_lt_dec hi (S e)) as [Hh|Hh].
  - rewrite (rsum_nil (S e)) by lia. apply rsum_zero. intros i Hi.
    replace (e <? i)%nat with false; [reflexivity|]. symmetry. apply Nat.ltb_ge. lia.
  - rewrite (rsum_split lo (S e) hi) by lia.
    rewrite rsum_zero.
    + rewrite Rplus_0_l. apply rsum_ext. intros i Hi.
      replace (e <? i)%nat with true; [reflexivity|]. symmetry. apply Nat.ltb_lt. lia.
    + intros i Hi. replace (e <? i)%nat with false; [reflexivity|].
      symmetry. apply Nat.ltb_ge. lia.
Qed.

Lemma rsum_if (b : bool) lo hi v :
  rsum lo hi (fun i => if b then v i else 0) = if b then rsum lo hi v else 0.
Proof. destruct b; [reflexivity|]. apply rsum_zero. reflexivity. Qed.

Section Terms.
  Variable dot : vec -> vec -> R.
  Variable proj : nat -> nat -> nat -> vec.
  Variable st : nat -> nat -> vec.
  Variable c : iconf.
  Variable t : itables.
  Variable s : istate.

  Definition flux0 (rho f e : nat) : R := dot (proj rho f 0%nat) (st e rho).
  Definition fluxe (rho f e : nat) : R := dot (proj rho f e) (st e rho).

  Lemma nc_body_obs flux rho alpha (ff : arr3) r f e :
    loop 1 (c_ne c) (fun e2 ff =>
      let flux := flux rho alpha e2 in
      let flux := flux * (s_NC s rho alpha e2 * c_delE c (e2 - 1)%nat) in
      loop 0 (length (c_dens c)) (fun trg ff =>
        let tFrac := nth trg (c_frac c) 0 in
        let flux_t := tFrac * flux in
        loop 0 e2 (fun e1 ff =>
          add3 ff rho alpha e1 (flux_t * t_dNC t trg rho alpha e2 e1)) ff) ff) ff r f e
    = ff r f e
      + if Nat.eqb r rho && Nat.eqb f alpha then nc_source c t s flux rho alpha e else 0.
  Proof.
    rewrite (loop_acc (fun a : arr3 => a r f e)
      (fun e2 => if Nat.eqb r rho && Nat.eqb f alpha then
         if (e <? e2)%nat then
           rsum 0 (length (c_dens c)) (fun trg =>
            fr c trg * (flux rho alpha e2 * (s_NC s rho alpha e2 * c_delE c (e2 - 1)))
            * t_dNC t trg rho alpha e2 e) else 0 else 0)).
    - f_equal. rewrite rsum_if. destruct (Nat.eqb r rho && Nat.eqb f alpha); [|reflexivity].
      rewrite above_sum by lia. reflexivity.
    - intros e2 a He2. cbv zeta.
      rewrite (loop_acc (fun a : arr3 => a r f e)
        (fun trg => if Nat.eqb r rho && Nat.eqb f alpha then
          if (e <? e2)%nat then
            fr c trg * (flux rho alpha e2 * (s_NC s rho alpha e2 * c_delE c (e2 - 1)))
            * t_dNC t trg rho alpha e2 e else 0 else 0)).
      + f_equal. rewrite rsum_if. rewrite rsum_if. reflexivity.
      + intros trg b _.
        rewrite (loop_acc (fun a : arr3 => a r f e)
          (fun e1 => if Nat.eqb r rho && Nat.eqb f alpha then
             if Nat.eqb e e1 then
             fr c trg * (flux rho alpha e2 * (s_NC s rho alpha e2 * c_delE c (e2 - 1)))
             * t_dNC t trg rho alpha e2 e1 else 0 else 0)).
        * f_equal. rewrite rsum_if. rewrite tri_sum. reflexivity.
        * intros e1 d _. rewrite add3_obs. f_equal.
          destruct (Nat.eqb r rho && Nat.eqb f alpha); reflexivity.
  Qed.

  Lemma nc_loop_obs flux (ff : arr3) r f e :
    (r < c_nrhos c)%nat -> (f < 3)%nat ->
    loop 0 (c_nrhos c) (fun rho ff =>
    loop 0 3 (fun alpha ff =>
    loop 1 (c_ne c) (fun e2 ff =>
      let flux := flux rho alpha e2 in
      let flux := flux * (s_NC s rho alpha e2 * c_delE c (e2 - 1)%nat) in
      loop 0 (length (c_dens c)) (fun trg ff =>
        let tFrac := nth trg (c_frac c) 0 in
        let flux_t := tFrac * flux in
        loop 0 e2 (fun e1 ff =>
          add3 ff rho alpha e1 (flux_t * t_dNC t trg rho alpha e2 e1)) ff) ff) ff) ff) ff r f e
    = ff r f e + nc_source c t s flux r f e.
  Proof.
    intros Hr Hf.
    rewrite (loop_acc (fun a : arr3 => a r f e)
      (fun rho => if Nat.eqb r rho then nc_source c t s flux rho f e else 0)).
    - f_equal. rewrite tri_sum.
      replace (0 <=? r)%nat with true by (symmetry; apply Nat.leb_le; lia).
      replace (r <? c_nrhos c)%nat with true by (symmetry; apply Nat.ltb_lt; lia).
      reflexivity.
    - intros rho a Hrho.
      rewrite (loop_acc (fun a : arr3 => a r f e)
        (fun alpha => if Nat.eqb r rho then
          if Nat.eqb f alpha then nc_source c t s flux rho alpha e else 0 else 0)).
      + f_equal. rewrite rsum_if, tri_sum.
        replace (0 <=? f)%nat with true by (symmetry; apply Nat.leb_le; lia).
        replace (f <? 3)%nat with true by (symmetry; apply Nat.ltb_lt; lia).
        reflexivity.
      + intros alpha b _. rewrite nc_body_obs. f_equal.
        destruct (Nat.eqb r rho); reflexivity.
  Qed.

  Lemma nc_noosc_eq ff r f e :
    (r < c_nrhos c)%nat -> (f < 3)%nat ->
    nc_noosc dot proj st c t s ff r f e = ff r f e + nc_source c t s flux0 r f e.
  Proof. apply (nc_loop_obs flux0). Qed.

  Lemma nc_osc_eq r f e :
    (r < c_nrhos c)%nat -> (f < 3)%nat ->
    nc_osc dot proj st c t s r f e = nc_source c t s fluxe r f e.
  Proof.
    intros Hr Hf. etransitivity; [apply (nc_loop_obs fluxe zero3); assumption|].
    unfold zero3. lra.
  Qed.

  (** The tau loops, for any fluxes. *)
  Definition taus_of (flux : nat -> nat -> nat -> R) : arr1 * arr1 :=
    loop 1 (c_ne c) (fun en '(td, tbd) =>
      let nu_tau_flux := flux 0%nat 2%nat en in
      let nu_tau_bar_flux := flux 1%nat 2%nat en in
      if rle nu_tau_flux 0 && rle nu_tau_bar_flux 0 then (td, tbd) else
      let dEn := c_delE c (en - 1)%nat in
      let icc := s_CC s 0%nat 2%nat en in
      let iccb := s_CC s 1%nat 2%nat en in
      loop 0 (length (c_dens c)) (fun trg '(td, tbd) =>
        let f := nu_tau_flux * icc * dEn * nth trg (c_frac c) 0 in
        let fb := nu_tau_bar_flux * iccb * dEn * nth trg (c_frac c) 0 in
        loop 1 en (fun et '(td, tbd) =>
          let dEt := c_delE c (et - 1)%nat in
          (add1 td et (f * t_dCC t trg 0 2 en et * dEt),
           add1 tbd et (fb * t_dCC t trg 1 2 en et * dEt))) (td, tbd)) (td, tbd))
      (zero1, zero1).

  Lemma taus_noosc_of : taus_noosc dot proj st c t s = taus_of flux0.
  Proof. reflexivity. Qed.
  Lemma taus_osc_of : taus_osc dot proj st c t s = taus_of fluxe.
  Proof. reflexivity. Qed.

  Lemma taus_of_fst flux et : (1 <= et)%nat ->
    fst (taus_of flux) et = tau_flux c t s flux 0 et.
  Proof.
    intro Het. unfold taus_of.
    rewrite (loop_acc (fun a : arr1 * arr1 => fst a et)
      (fun en => if (et <? en)%nat then
         if tau_skip flux en then 0 else
          rsum 0 (length (c_dens c)) (fun trg =>
           flux 0%nat 2%nat en * s_CC s 0%nat 2%nat en * c_delE c (en - 1) * fr c trg
           * t_dCC t trg 0 2 en et * c_delE c (et - 1)) else 0)).
    - rewrite above_sum by lia. unfold zero1, tau_flux. cbn [fst]. lra.
    - intros en [td tbd] Hen. cbv zeta. fold (tau_skip flux en).
      destruct (tau_skip flux en).
      + destruct (et <? en)%nat; lra.
      + rewrite (loop_acc (fun a : arr1 * arr1 => fst a et)
          (fun trg => if (et <? en)%nat then
            flux 0%nat 2%nat en * s_CC s 0%nat 2%nat en * c_delE c (en - 1) * fr c trg
            * t_dCC t trg 0 2 en et * c_delE c (et - 1) else 0)).
        * rewrite rsum_if. reflexivity.
        * intros trg [a b] _.
          rewrite (loop_acc (fun a : arr1 * arr1 => fst a et)
            (fun et' => if Nat.eqb et et' then
              flux 0%nat 2%nat en * s_CC s 0%nat 2%nat en * c_delE c (en - 1) * fr c trg
              * t_dCC t trg 0 2 en et' * c_delE c (et' - 1) else 0)).
          -- f_equal. rewrite tri_sum.
             replace (1 <=? et)%nat with true by (symmetry; apply Nat.leb_le; lia).
             reflexivity.
          -- intros et' [a' b'] _. cbn [fst]. rewrite add1_obs. reflexivity.
  Qed.

  Lemma taus_of_snd flux et : (1 <= et)%nat ->
    snd (taus_of flux) et = tau_flux c t s flux 1 et.
  Proof.
    intro Het. unfold taus_of.
    rewrite (loop_acc (fun a : arr1 * arr1 => snd a et)
      (fun en => if (et <? en)%nat then
         if tau_skip flux en then 0 else
          rsum 0 (length (c_dens c)) (fun trg =>
           flux 1%nat 2%nat en * s_CC s 1%nat 2%nat en * c_delE c (en - 1) * fr c trg
           * t_dCC t trg 1 2 en et * c_delE c (et - 1)) else 0)).
    - rewrite above_sum by lia. unfold zero1, tau_flux. cbn [snd]. lra.
    - intros en [td tbd] Hen. cbv zeta. fold (tau_skip flux en).
      destruct (tau_skip flux en).
      + destruct (et <? en)%nat; lra.
      + rewrite (loop_acc (fun a : arr1 * arr1 => snd a et)
          (fun trg => if (et <? en)%nat then
            flux 1%nat 2%nat en * s_CC s 1%nat 2%nat en * c_delE c (en - 1) * fr c trg
            * t_dCC t trg 1 2 en et * c_delE c (et - 1) else 0)).
        * rewrite rsum_if. reflexivity.
        * intros trg [a b] _.
          rewrite (loop_acc (fun a : arr1 * arr1 => snd a et)
            (fun et' => if Nat.eqb et et' then
              flux 1%nat 2%nat en * s_CC s 1%nat 2%nat en * c_delE c (en - 1) * fr c trg
              * t_dCC t trg 1 2 en et' * c_delE c (et' - 1) else 0)).
          -- f_equal. rewrite tri_sum.
             replace (1 <=? et)%nat with true by (symmetry; apply Nat.leb_le; lia).
             reflexivity.
          -- intros et' [a' b'] _. cbn [snd]. rewrite add1_obs. reflexivity.
  Qed.

  (** Sum over a triangle of a term observed at a fixed entry. *)
  Lemma tri_loop {A : Type} (obs : A -> R) (outer : nat -> A -> A)
      (body : nat -> nat -> A -> A) (v : nat -> nat -> R) e a :
    (forall et a, outer et a = loop 0 et (body et) a) ->
    (forall et e1 a, (1 <= et)%nat -> (e1 < et)%nat ->
       obs (body et e1 a) = obs a + if Nat.eqb e e1 then v et e1 else 0) ->
    obs (loop 1 (c_ne c) outer a)
    = obs a + rsum (S e) (c_ne c) (fun et => v et e).
  Proof.
    intros Ho H.
    rewrite (loop_acc obs (fun et => if (e <? et)%nat then v et e else 0)).
    - rewrite above_sum by lia. reflexivity.
    - intros et b Het. rewrite Ho.
      rewrite (loop_acc obs (fun e1 => if Nat.eqb e e1 then v et e1 else 0)).
      + rewrite tri_sum. replace (0 <=? e)%nat with true by (symmetry; apply Nat.leb_le; lia).
        reflexivity.
      + intros e1 d He1. apply H; lia.
  Qed.

  (** A loop over single entries adds the term of that entry. *)
  Lemma line_loop {A : Type} (obs : A -> R) (body : nat -> A -> A) (v : nat -> R) n e a :
    (e < n)%nat ->
    (forall e1 a, obs (body e1 a) = obs a + if Nat.eqb e e1 then v e1 else 0) ->
    obs (loop 0 n body a) = obs a + v e.
  Proof.
    intros He H. rewrite (loop_acc obs (fun e1 => if Nat.eqb e e1 then v e1 else 0)).
    - rewrite tri_sum. replace (0 <=? e)%nat with true by (symmetry; apply Nat.leb_le; lia).
      replace (e <? n)%nat with true by (symmetry; apply Nat.ltb_lt; lia). reflexivity.
    - intros; apply H.
  Qed.

  Ltac entry :=
    cbn [fst snd]; rewrite ?add1_obs, ?add2_obs, ?add3_obs, ?addv_obs; cbn [Nat.eqb andb];
    try (destruct (Nat.eqb _ _)); lra.

  (** What the triangle of decays leaves in the three buffers (746-784). *)
  Lemma decay_buffers td tbd (ff : arr3) e :
    let a := loop 1 (c_ne c) (fun et '(lep, lepb, ff) =>
      loop 0 et (fun e1 '(lep, lepb, ff) =>
        let lep := add1 lep e1 (tbd et * t_tlep t 1 et e1) in
        let lepb := add1 lepb e1 (td et * t_tlep t 0 et e1) in
        let ff := add3 ff 0 2 e1 (td et * t_tall t 0 et e1) in
        let ff := add3 ff 1 2 e1 (tbd et * t_tall t 1 et e1) in
        (lep, lepb, ff)) (lep, lepb, ff)) (zero1, zero1, ff) in
    fst (fst a) e = rsum (S e) (c_ne c) (fun et => tbd et * t_tlep t 1 et e) /\
    snd (fst a) e = rsum (S e) (c_ne c) (fun et => td et * t_tlep t 0 et e) /\
    snd a 0%nat 2%nat e
    = ff 0%nat 2%nat e + rsum (S e) (c_ne c) (fun et => td et * t_tall t 0 et e) /\
    snd a 1%nat 2%nat e
    = ff 1%nat 2%nat e + rsum (S e) (c_ne c) (fun et => tbd et * t_tall t 1 et e) /\
    (forall r f, f <> 2%nat -> snd a r f e = ff r f e).
  Proof.
    set (body := fun (et e1 : nat) '(lep, lepb, ff) =>
        let lep := add1 lep e1 (tbd et * t_tlep t 1 et e1) in
        let lepb := add1 lepb e1 (td et * t_tlep t 0 et e1) in
        let ff := add3 ff 0 2 e1 (td et * t_tall t 0 et e1) in
        let ff := add3 ff 1 2 e1 (tbd et * t_tall t 1 et e1) in
        (lep, lepb, ff) : arr1 * arr1 * arr3).
    cbv zeta. repeat split.
    - rewrite (tri_loop (fun a : arr1 * arr1 * arr3 => fst (fst a) e) _ body
        (fun et e1 => tbd et * t_tlep t 1 et e1) e).
      + cbn [fst snd]. unfold zero1. lra.
      + intros et [[? ?] ?]. reflexivity.
      + intros et e1 [[? ?] ?] _ _. unfold body. cbn [fst snd]. rewrite add1_obs. reflexivity.
    - rewrite (tri_loop (fun a : arr1 * arr1 * arr3 => snd (fst a) e) _ body
        (fun et e1 => td et * t_tlep t 0 et e1) e).
      + cbn [fst snd]. unfold zero1. lra.
      + intros et [[? ?] ?]. reflexivity.
      + intros et e1 [[? ?] ?] _ _. unfold body. cbn [fst snd]. rewrite add1_obs. reflexivity.
    - rewrite (tri_loop (fun a : arr1 * arr1 * arr3 => snd a 0%nat 2%nat e) _ body
        (fun et e1 => td et * t_tall t 0 et e1) e).
      + reflexivity.
      + intros et [[? ?] ?]. reflexivity.
      + intros et e1 [[? ?] ?] _ _. unfold body. entry.
    - rewrite (tri_loop (fun a : arr1 * arr1 * arr3 => snd a 1%nat 2%nat e) _ body
        (fun et e1 => tbd et * t_tall t 1 et e1) e).
      + reflexivity.
      + intros et [[? ?] ?]. reflexivity.
      + intros et e1 [[? ?] ?] _ _. unfold body. entry.
    - intros r f Hf.
      rewrite (tri_loop (fun a : arr1 * arr1 * arr3 => snd a r f e) _ body
        (fun et e1 => 0) e).
      + rewrite rsum_zero by reflexivity. cbn [snd]. lra.
      + intros et [[? ?] ?]. reflexivity.
      + intros et e1 [[? ?] ?] _ _. unfold body. cbn [snd]. rewrite !add3_obs.
        rewrite (eqb_no f 2) by exact Hf. rewrite !andb_false_r. cbn [andb].
        destruct (Nat.eqb e e1); lra.
  Qed.

  Definition tau_term flux (r f e : nat) : R :=
    if Nat.eqb f 2 then had_source c t s flux r e else lep_source c t s flux (1 - r) e.

  Lemma had_of flux r e (td : arr1) :
    (forall et, (1 <= et)%nat -> td et = tau_flux c t s flux r et) ->
    rsum (S e) (c_ne c) (fun et => td et * t_tall t r et e) = had_source c t s flux r e.
  Proof. intro H. apply rsum_ext. intros i Hi. rewrite H by lia. reflexivity. Qed.
  Lemma lep_of flux r e (td : arr1) :
    (forall et, (1 <= et)%nat -> td et = tau_flux c t s flux r et) ->
    rsum (S e) (c_ne c) (fun et => td et * t_tlep t r et e) = lep_source c t s flux r e.
  Proof. intro H. apply rsum_ext. intros i Hi. rewrite H by lia. reflexivity. Qed.

  Lemma decays_noosc_eq rne ff r f e :
    (r < 2)%nat -> (f < 3)%nat -> (e < rne)%nat ->
    decays_noosc dot proj st c t s rne ff r f e = ff r f e + tau_term flux0 r f e.
  Proof.
    intros Hr Hf He. unfold decays_noosc. rewrite taus_noosc_of.
    pose proof (taus_of_fst flux0) as H0. pose proof (taus_of_snd flux0) as H1.
    destruct (taus_of flux0) as [td tbd]. cbn [fst snd] in H0, H1.
    pose proof (decay_buffers td tbd ff e) as B. cbv zeta in B.
    match goal with |- context [loop 1 (c_ne c) ?b ?a] =>
      set (L := loop 1 (c_ne c) b a) in *; change (loop 1 (c_ne c) b a) with L in B end.
    destruct L as [[lep lepb] ff']. cbn [fst snd] in B.
    destruct B as (Bl & Blb & Bt & Btb & Bo).
    rewrite (had_of flux0 0) in Bt by exact H0.
    rewrite (had_of flux0 1) in Btb by exact H1.
    rewrite (lep_of flux0 1) in Bl by exact H1.
    rewrite (lep_of flux0 0) in Blb by exact H0.
    cbv zeta.
    rewrite (line_loop (fun a : arr3 => a r f e) _
      (fun e1 => if Nat.eqb f 2 then 0 else if Nat.eqb r 0 then lep e1 else lepb e1) rne e);
      [|exact He|intros e1 a; rewrite !add3_obs;
          (destruct r as [|[|r]]; [| |lia]);
          (destruct f as [|[|[|f]]]; [| | |lia]); cbn [Nat.eqb andb];
          try destruct (Nat.eqb e e1); lra].
    unfold tau_term.
    destruct r as [|[|r]]; [| |lia];
      (destruct f as [|[|[|f]]]; [| | |lia]); cbn [Nat.eqb Nat.sub];
      rewrite ?Bt, ?Btb, ?Bl, ?Blb, ?Bo by discriminate; lra.
  Qed.

  Lemma decays_osc_eq r e :
    (r < 2)%nat ->
    fst (decays_osc dot proj st c t s) r e = had_source c t s fluxe r e /\
    snd (decays_osc dot proj st c t s) r e = lep_source c t s fluxe (1 - r) e.
  Proof.
    intros Hr. unfold decays_osc. rewrite taus_osc_of.
    pose proof (taus_of_fst fluxe) as H0. pose proof (taus_of_snd fluxe) as H1.
    destruct (taus_of fluxe) as [td tbd]. cbn [fst snd] in H0, H1.
    set (body := fun (et e1 : nat) '(had, lep) =>
        let had := add2 had 0 e1 (td et * t_tall t 0 et e1) in
        let lep := add2 lep 0 e1 (tbd et * t_tlep t 1 et e1) in
        let had := add2 had 1 e1 (tbd et * t_tall t 1 et e1) in
        let lep := add2 lep 1 e1 (td et * t_tlep t 0 et e1) in
        (had, lep) : arr2 * arr2).
    split.
    - rewrite (tri_loop (fun a : arr2 * arr2 => fst a r e) _ body
        (fun et e1 => (if Nat.eqb r 0 then td et else tbd et) * t_tall t r et e1) e).
      + cbn [fst]. unfold zero2. rewrite Rplus_0_l.
        destruct r as [|[|r]]; [| |lia]; cbn [Nat.eqb];
          [apply (had_of fluxe 0), H0|apply (had_of fluxe 1), H1].
      + intros et [? ?]. reflexivity.
      + intros et e1 [? ?] _ _. unfold body. cbn [fst]. rewrite !add2_obs.
        destruct r as [|[|r]]; [| |lia]; cbn [Nat.eqb andb];
          destruct (Nat.eqb e e1); lra.
    - rewrite (tri_loop (fun a : arr2 * arr2 => snd a r e) _ body
        (fun et e1 => (if Nat.eqb r 0 then tbd et else td et) * t_tlep t (1 - r) et e1) e).
      + cbn [snd]. unfold zero2. rewrite Rplus_0_l.
        destruct r as [|[|r]]; [| |lia]; cbn [Nat.eqb Nat.sub];
          [apply (lep_of fluxe 1), H1|apply (lep_of fluxe 0), H0].
      + intros et [? ?]. reflexivity.
      + intros et e1 [? ?] _ _. unfold body. cbn [snd]. rewrite !add2_obs.
        destruct r as [|[|r]]; [| |lia]; cbn [Nat.eqb andb Nat.sub];
          destruct (Nat.eqb e e1); lra.
  Qed.

  Lemma gr_loop_obs flux rho e :
    loop 1 (c_ne c) (fun e2 gr =>
        let flux := flux rho 0%nat e2 in
        let f := flux * s_GR s e2 * c_delE c (e2 - 1)%nat in
        loop 0 e2 (fun e1 gr => add1 gr e1 (f * t_dGR t e2 e1)) gr) zero1 e
    = gr_source c t s flux rho e.
  Proof.
    rewrite (tri_loop (fun a : arr1 => a e) _
      (fun e2 e1 gr => add1 gr e1 (flux rho 0%nat e2 * s_GR s e2 * c_delE c (e2 - 1)%nat
                                   * t_dGR t e2 e1))
      (fun e2 e1 => flux rho 0%nat e2 * s_GR s e2 * c_delE c (e2 - 1) * t_dGR t e2 e1) e).
    - unfold zero1. apply Rplus_0_l.
    - reflexivity.
    - intros. apply add1_obs.
  Qed.

  Lemma gr_osc_eq e :
    gr_osc dot proj st c t s e = gr_source c t s fluxe (anti_rho c) e.
  Proof. apply (gr_loop_obs fluxe). Qed.

  Lemma glashow_noosc_eq ff r f e :
    (f < 3)%nat -> (e < c_ne c)%nat ->
    glashow_noosc dot proj st c t s ff r f e
    = ff r f e + if Nat.eqb r (anti_rho c) then gr_source c t s flux0 (anti_rho c) e else 0.
  Proof.
    intros Hf He. unfold glashow_noosc. fold (anti_rho c).
    rewrite <- (gr_loop_obs flux0).
    match goal with |- context [loop 1 (c_ne c) ?b zero1] =>
      set (gr := loop 1 (c_ne c) b zero1) end.
    change (loop 1 (c_ne c) _ zero1) with gr at 1.
    rewrite (line_loop (fun a : arr3 => a r f e) _
      (fun e1 => if Nat.eqb r (anti_rho c) then gr e1 else 0) (c_ne c) e).
    - reflexivity.
    - exact He.
    - intros e1 a. cbv zeta. rewrite !add3_obs.
      destruct f as [|[|[|f]]]; [| | |lia]; cbn [Nat.eqb andb];
        destruct (Nat.eqb r (anti_rho c)); cbn [andb];
        destruct (Nat.eqb e e1); lra.
  Qed.

  (** Which density index takes the Glashow term: the two tests of the source
      (800, 405) agree. *)
  Lemma glashow_rho r :
    (r < c_nrhos c)%nat -> (c_nt c = Both -> c_nrhos c = 2%nat) ->
    (c_nt c <> Both -> c_nrhos c = 1%nat) ->
    (glashow_on c && Nat.eqb r (anti_rho c)) = (c_gr c && is_anti (c_nt c) r)%bool.
  Proof.
    intros Hr Hb Hn. unfold glashow_on, anti_rho, is_anti.
    destruct (c_gr c); [|reflexivity]. destruct (c_nt c); cbn [nt_eqb orb andb].
    - reflexivity.
    - rewrite Hn in Hr by discriminate. replace r with 0%nat by lia. reflexivity.
    - rewrite orb_false_r. reflexivity.
  Qed.

  (** The shape conditions every initialised object satisfies (init, 155-165;
      Set_TauRegeneration, 2801-2809). *)
  Definition shaped : Prop :=
    (c_nt c = Both -> c_nrhos c = 2%nat) /\ (c_nt c <> Both -> c_nrhos c = 1%nat) /\
    (c_tau c = true -> c_nt c = Both) /\ (3 <= c_numneu c)%nat.

  Lemma shaped_rho2 r : shaped -> (r < c_nrhos c)%nat -> (r < 2)%nat.
  Proof.
    intros (Hb & Hn & _) Hr. destruct (c_nt c);
    first [rewrite Hn in Hr by discriminate; lia | rewrite Hb in Hr by reflexivity; lia].
  Qed.

  Lemma anti_rho_is r : shaped -> (r < c_nrhos c)%nat ->
    c_gr c && is_anti (c_nt c) r = true -> r = anti_rho c.
  Proof.
    intros (Hb & Hn & _) Hr H. rewrite <- glashow_rho in H by assumption.
    apply andb_true_iff in H. apply Nat.eqb_eq, H.
  Qed.

  Theorem factors_noosc_eq rne r f e :
    shaped -> (c_ne c <= rne)%nat -> (r < c_nrhos c)%nat -> (f < 3)%nat ->
    (e < c_ne c)%nat ->
    factors_noosc dot proj st c t s rne r f e = factor c t s flux0 r f e.
  Proof.
    intros Hs Hrne Hr Hf He. pose proof (shaped_rho2 r Hs Hr) as Hr2.
    pose proof (anti_rho_is r Hs Hr) as Ha. destruct Hs as (Hb & Hn & _).
    unfold factors_noosc, factor.
    assert (E : forall ff,
      (if glashow_on c then glashow_noosc dot proj st c t s ff else ff) r f e
      = ff r f e + (if c_gr c && is_anti (c_nt c) r then gr_source c t s flux0 r e else 0)).
    { intro ff. rewrite <- glashow_rho in Ha |- * by assumption.
      destruct (glashow_on c) eqn:Eg; cbn [andb] in Ha |- *; [|lra].
      rewrite glashow_noosc_eq by assumption.
      destruct (Nat.eqb r (anti_rho c)) eqn:Er; [|reflexivity].
      rewrite <- (Ha eq_refl). reflexivity. }
    rewrite E. f_equal.
    destruct (c_tau c).
    - rewrite decays_noosc_eq by lia. rewrite nc_noosc_eq by assumption.
      unfold zero3, tau_term. lra.
    - rewrite nc_noosc_eq by assumption. unfold zero3. lra.
  Qed.

  (** The vector of sources at a node. *)
  Definition src_vec (r e : nat) : vec :=
    fun k => rsum 0 (c_numneu c) (fun i => c_ext c e r i * proj r i e k).

  Theorem cache_noosc_eq rne r e k :
    shaped -> (c_ne c <= rne)%nat -> (r < c_nrhos c)%nat -> (e < c_ne c)%nat ->
    cache_noosc dot proj st c t s rne r e k
    = rsum 0 3 (fun f => factor c t s flux0 r f e * proj r f 0%nat k)
      + (if c_src c then INR (c_nrhos c) * src_vec r e k else 0).
  Proof.
    intros Hs Hrne Hr He. unfold cache_noosc.
    rewrite (loop_acc (fun ca : nat -> nat -> vec => ca r e k)
      (fun rho => (if Nat.eqb r rho then
         rsum 0 3 (fun f => factor c t s flux0 rho f e * proj rho f 0%nat k) else 0)
         + (if c_src c then src_vec r e k else 0))).
    - unfold vzero. rewrite rsum_plus, tri_sum.
      replace (0 <=? r)%nat with true by (symmetry; apply Nat.leb_le; lia).
      replace (r <? c_nrhos c)%nat with true by (symmetry; apply Nat.ltb_lt; lia).
      cbn [andb]. rewrite Rplus_0_l. f_equal.
      destruct (c_src c); [|apply rsum_zero; reflexivity].
      clear. induction (c_nrhos c) as [|n IH]; [rewrite rsum_nil by lia; cbn; lra|].
      rewrite (rsum_split 0 n) by lia. rewrite IH. rewrite (rsum_first n) by lia.
      rewrite rsum_nil by lia. rewrite S_INR. lra.
    - intros rho ca Hrho. cbv zeta.
      assert (E : forall ca, (if c_src c then
        loop 0 (c_nrhos c) (fun rho ca =>
        loop 0 (c_ne c) (fun e1 ca =>
        loop 0 (c_numneu c) (fun i ca =>
          addv ca rho e1 (vscale (c_ext c e1 rho i) (proj rho i e1))) ca) ca) ca
        else ca) r e k = ca r e k + (if c_src c then src_vec r e k else 0)).
      { intro a. destruct (c_src c); [|lra].
        rewrite (line_loop (fun ca : nat -> nat -> vec => ca r e k) _
          (fun rho => src_vec rho e k) (c_nrhos c) r); [reflexivity|exact Hr|].
        intros rho' b.
        rewrite (line_loop (fun ca : nat -> nat -> vec => ca r e k) _
          (fun e1 => if Nat.eqb r rho' then src_vec rho' e1 k else 0) (c_ne c) e);
          [reflexivity|exact He|].
        intros e1 d.
        rewrite (loop_acc (fun ca : nat -> nat -> vec => ca r e k)
          (fun i => if Nat.eqb e e1 then if Nat.eqb r rho' then
             c_ext c e1 rho' i * proj rho' i e1 k else 0 else 0)).
        - rewrite !rsum_if. reflexivity.
        - intros i x _. rewrite addv_obs. unfold vscale.
          destruct (Nat.eqb r rho'), (Nat.eqb e e1); reflexivity. }
      rewrite E. rewrite <- Rplus_assoc. f_equal.
      rewrite (line_loop (fun ca : nat -> nat -> vec => ca r e k) _
        (fun e1 => if Nat.eqb r rho then
           factors_noosc dot proj st c t s rne rho 0%nat e1 * proj rho 0%nat 0%nat k
           + factors_noosc dot proj st c t s rne rho 1%nat e1 * proj rho 1%nat 0%nat k
           + factors_noosc dot proj st c t s rne rho 2%nat e1 * proj rho 2%nat 0%nat k else 0)
        (c_ne c) e).
      + f_equal. destruct (Nat.eqb r rho) eqn:Er; [|reflexivity].
        apply Nat.eqb_eq in Er. subst rho.
        rewrite !factors_noosc_eq by (assumption || lia).
        rewrite !(rsum_first _ 3) by lia. rewrite rsum_nil by lia. lra.
      + exact He.
      + intros e1 a. rewrite !addv_obs. unfold vscale.
        destruct (Nat.eqb r rho), (Nat.eqb e e1); cbn [andb]; lra.
  Qed.

  (** The general path. *)
  Theorem interactions_osc_eq old r e k :
    shaped -> (r < c_nrhos c)%nat -> (e < c_ne c)%nat ->
    interactions_osc proj c (update_osc dot proj st c t s old) r e k
    = rsum 0 3 (fun f => factor c t s fluxe r f e * proj r f e k)
      + (if c_src c then src_vec r e k else 0).
  Proof.
    intros Hs Hr He. pose proof (shaped_rho2 r Hs Hr) as Hr2.
    pose proof (anti_rho_is r Hs Hr) as Ha.
    destruct Hs as (Hb & Hn & Ht & H3).
    unfold interactions_osc, update_osc, factor.
    pose proof (glashow_rho r Hr Hb Hn) as Hg.
    destruct (decays_osc_eq r e Hr2) as [D1 D2].
    rewrite !(rsum_first _ 3) by lia. rewrite (rsum_nil 3 3) by lia.
    unfold src_vec. rewrite (rsum_split 0 3 (c_numneu c)) by lia.
    rewrite !(rsum_first _ 3) by lia. rewrite (rsum_nil 3 3) by lia.
    assert (G : (c_gr c && is_anti (c_nt c) r)%bool = true ->
                (if glashow_on c then gr_osc dot proj st c t s else f_gr old) e
                = gr_source c t s fluxe r e).
    { intro H. rewrite H in Hg. apply andb_true_iff in Hg. destruct Hg as [Hg _].
      rewrite Hg, gr_osc_eq, <- (Ha H). reflexivity. }
    destruct (decays_osc dot proj st c t s) as [had lep]. cbn [fst snd] in D1, D2.
    assert (L : forall v : vec,
      loop 3 (c_numneu c)
        (fun i v => vadd v (vscale (c_ext c e r i) (proj r i e))) v k
      = v k + rsum 3 (c_numneu c) (fun i => c_ext c e r i * proj r i e k)).
    { intro v. apply (loop_acc (fun v : vec => v k)). reflexivity. }
    destruct (c_tau c); cbn [f_nc f_had f_lep f_gr Nat.eqb];
      (destruct (c_gr c && is_anti (c_nt c) r)%bool; [rewrite (G eq_refl)|]);
      destruct (c_src c); cbv beta iota zeta; rewrite ?L;
      cbn [f_nc f_had f_lep f_gr]; unfold vadd, vscale;
      rewrite ?D1, ?D2, ?G by reflexivity;
      rewrite !nc_osc_eq by (assumption || lia); lra.
  Qed.

  Lemma sources_only_eq r e k : (1 <= c_numneu c)%nat ->
    sources_only proj c r e k = src_vec r e k.
  Proof.
    intro H. unfold sources_only, src_vec.
    rewrite (loop_acc (fun v : vec => v k)
      (fun i => c_ext c e r i * proj r i e k)) by reflexivity.
    rewrite (rsum_first 0) by lia. reflexivity.
  Qed.

End Terms.
