(** C77: the decoherence extension. *)
From Coq Require Import Reals List Arith Bool Lia Lra.
From Verif Require Import CMatrix FlavorModel FlavorProofs FlavorEqn DecohModel DecohProofs.
Import ListNotations.
Open Scope R_scope.

(** ** The matrix of rates *)

(** In the order of SQuIDS what is set is what is read; a matrix of another size
    is refused and changes nothing. *)
Theorem c77_rates_read_back e0 e1 dmat o :
  (e0 = (d_n o * d_n o)%nat -> e1 = (d_n o * d_n o)%nat -> exists o', set_gamma e0 e1 dmat false o = (o', false) /\
    forall i j, (i < d_n o * d_n o)%nat -> (j < d_n o * d_n o)%nat -> get_gamma o' i j = dmat i j) /\
  (e0 <> (d_n o * d_n o)%nat \/ e1 <> (d_n o * d_n o)%nat -> forall gm, set_gamma e0 e1 dmat gm o = (o, true)).
Proof.
  split.
  - intros -> ->. unfold set_gamma. rewrite Nat.eqb_refl. cbn [negb orb].
    destruct (set_plain (d_n o) dmat (d_gamma o)) as (h & E & H). rewrite E. eexists. split; [reflexivity|exact H].
  - intros D gm. unfold set_gamma. destruct D as [D|D]; apply Nat.eqb_neq in D; rewrite D; cbn [negb orb]; rewrite ?orb_true_r; reflexivity.
Qed.

(** The standard Gell-Mann matrices, and the identity before them. *)
Definition gell_mann (k : nat) : mat := fun a b =>
  let i := mkC 0 1 in
  match k, a, b with
  | 0, 0, 0 | 0, 1, 1 | 0, 2, 2 => c1
  | 1, 0, 1 | 1, 1, 0 => c1
  | 2, 0, 1 => copp i | 2, 1, 0 => i
  | 3, 0, 0 => c1 | 3, 1, 1 => copp c1
  | 4, 0, 2 | 4, 2, 0 => c1
  | 5, 0, 2 => copp i | 5, 2, 0 => i
  | 6, 1, 2 | 6, 2, 1 => c1
  | 7, 1, 2 => copp i | 7, 2, 1 => i
  | 8, 0, 0 | 8, 1, 1 => rtc (/ sqrt 3) | 8, 2, 2 => rtc (- 2 / sqrt 3)
  | _, _, _ => c0
  end%nat.

(** Each is sent to the generator of SQuIDS that is a multiple of it, and every
    element of the matrix arrives at the place of its two generators. *)
Theorem c77_standard_order dmat o : d_n o = 3%nat -> exists o' mu, set_gamma 9 9 dmat true o = (o', false) /\
  (forall i j, (i < 9)%nat -> (j < 9)%nat -> get_gamma o' (mu i) (mu j) = dmat i j) /\
  (forall k, (k < 9)%nat -> exists i, (i < 9)%nat /\ mu i = k) /\
  (forall i s, (i < 9)%nat -> s (mu i) <> 0 -> exists x, meq 3 (gell_mann i) (mscale x (gen 3 s (mu i)))).
Proof.
  intro N. destruct (set_standard dmat (d_gamma o)) as (h & E & H).
  exists (with_gamma o h), mu3. unfold set_gamma. rewrite N, E. split; [reflexivity|]. split; [exact H|]. split; [exact mu3_onto|].
  assert (Q3 : sqrt 3 <> 0) by (apply Rgt_not_eq, sqrt_lt_R0; lra).
  intros i s Hi Hs. exists (/ s (mu3 i) * (if Nat.eqb i 8 then / sqrt 3 else 1)).
  intros a b Ha Hb. unfold mscale, gen. unfold mscale.
  destruct a as [|[|[|a]]]; [| | |lia]; (destruct b as [|[|[|b]]]; [| | |lia]); clear Ha Hb;
    do 9 (destruct i as [|i]; [apply Ceq; cbn in Hs |- *; field; repeat split; assumption|]); lia.
Qed.

(** With another number of flavours the standard order is refused. *)
Theorem c77_standard_three dmat o e0 e1 : (3 < d_n o)%nat -> set_gamma e0 e1 dmat true o = (o, true).
Proof.
  intro H. unfold set_gamma. destruct (negb _ || negb _); [reflexivity|]. rewrite (set_standard_other (d_n o) dmat (d_gamma o) H).
  destruct o; reflexivity.
Qed.

(** ** The models *)
Definition factor (o : decoh) (E : R) : R := Rpower (E / d_scale o) (d_power o).
Definition damping (n : nat) (s : nat -> R) (o : decoh) (E : R) (rho : comps) : mat := of_comps n s (drho o E rho).

(** the rates of the models *)
Lemma model_set m gamma o : exists o', set_model m gamma o = (o', false) /\ d_n o' = d_n o /\ d_on o' = d_on o /\ d_other o' = d_other o /\
  (forall E, factor o' E = factor o E) /\
  (forall E rho k, (k < d_n o * d_n o)%nat -> drho o' E rho k = factor o E * model_rates m gamma k * rho k).
Proof.
  unfold set_model. destruct (set_diagonal_plain (d_n o * d_n o) (model_rates m gamma) o eq_refl) as (o' & E & En & Eo & Ep & Es & Ei & Eso & Eot & G).
  exists o'. assert (F : forall E, factor o' E = factor o E) by (intro; unfold factor; rewrite Ep, Es; reflexivity).
  split; [exact E|]. refine (conj En (conj Eo (conj Eot (conj F _)))).
  intros X rho k Hk. rewrite <- F. apply diagonal_rates; rewrite ?En; assumption.
Qed.

(** RandomizeState: the state is drawn to the equal mixture of all flavours. *)
Theorem c77_randomize_state gamma o s E rho : (3 <= d_n o)%nat -> s 0%nat = 1 -> exists o', set_model RandomizeState gamma o = (o', false) /\
  let n := d_n o in let M := of_comps n s rho in
  meq n (damping n s o' E rho) (mscale (gamma * factor o E) (mplus M (mscale (- (re (trace n M) / INR n)) mid))).
Proof.
  intros N S0. destruct (model_set RandomizeState gamma o) as (o' & E' & En & _ & _ & F & D). exists o'. split; [exact E'|].
  intros n M a b Ha Hb. unfold damping, n.
  assert (Nz : INR (d_n o) <> 0) by (apply not_0_INR; lia).
  assert (T : re (trace n M) / INR n = rho 0%nat).
  { unfold M, n. rewrite trace_comps by lia. cbn. rewrite S0. field. exact Nz. }
  rewrite (of_comps_ext _ s _ (fun k => (gamma * factor o E) * (rho k - (if Nat.eqb k 0 then rho 0%nat else 0)))).
  - rewrite of_comps_scale, of_comps_minus. fold n. rewrite first_only by (unfold n in *; lia).
    rewrite S0, T. unfold mscale, mplus, M, n, mid. unfold cminus. apply Ceq; cbn; ring.
  - intros k Hk. rewrite D by exact Hk. cbn [model_rates]. unfold fill. destruct (Nat.eqb_spec k 0) as [->|Nk]; ring.
Qed.

(** NeutrinoLoss: everything decreases alike. *)
Theorem c77_neutrino_loss gamma o s E rho : (3 <= d_n o)%nat -> exists o', set_model NeutrinoLoss gamma o = (o', false) /\
  let n := d_n o in meq n (damping n s o' E rho) (mscale (gamma * factor o E) (of_comps n s rho)).
Proof.
  intros N. destruct (model_set NeutrinoLoss gamma o) as (o' & E' & En & _ & _ & F & D). exists o'. split; [exact E'|].
  intros n a b Ha Hb. unfold damping, n. rewrite (of_comps_ext _ s _ (fun k => (gamma * factor o E) * rho k)).
  - rewrite of_comps_scale. reflexivity.
  - intros k Hk. rewrite D by exact Hk. cbn [model_rates]. ring.
Qed.

(** The flavour contents seen: under RandomizeState each goes to the mean, and
    the number of neutrinos stays. *)
Theorem c77_contents gamma o s E rho V P : (3 <= d_n o)%nat -> s 0%nat = 1 -> unitary (d_n o) V -> frame (d_n o) V P ->
  exists o', set_model RandomizeState gamma o = (o', false) /\
  let n := d_n o in let M := of_comps n s rho in
  let total := rsum n (fun k => expect n (P k) M) in
  (forall k, (k < n)%nat -> expect n (P k) (damping n s o' E rho) = gamma * factor o E * (expect n (P k) M - total / INR n)) /\
  rsum n (fun k => expect n (P k) (damping n s o' E rho)) = 0.
Proof.
  intros N S0 U F. destruct (c77_randomize_state gamma o s E rho N S0) as (o' & E' & D). exists o'. split; [exact E'|].
  intros n M total. cbv zeta in D. fold n in D. fold M in D.
  assert (Nz : INR n <> 0) by (apply not_0_INR; unfold n; lia).
  assert (T : total = re (trace n M)) by (apply (frame_total n V P M U F)).
  assert (I1 : forall k, (k < n)%nat -> expect n (P k) mid = 1).
  { intros k Hk. unfold expect. rewrite (trace_meq n _ (P k)) by apply mmult_id_r.
    rewrite (trace_meq n _ (mmult n (P k) (P k))).
    - rewrite (frame_trace n V P k k U F Hk Hk), delta_eq. reflexivity.
    - apply meq_sym. eapply meq_trans; [apply (frame_prod n V P k k U F Hk Hk)|]. rewrite Nat.eqb_refl. apply meq_refl. }
  assert (C : forall k, (k < n)%nat -> expect n (P k) (damping n s o' E rho) = gamma * factor o E * (expect n (P k) M - total / INR n)).
  { intros k Hk. rewrite (expect_meq n _ _ _ _ (meq_refl n (P k)) D). rewrite expect_scale_r, expect_plus_r, expect_scale_r, I1, T by exact Hk. field. exact Nz. }
  split; [exact C|].
  rewrite (rsum_ext n _ (fun k => gamma * factor o E * (expect n (P k) M + - (total / INR n)))) by (intros k Hk; rewrite (C k Hk); ring).
  rewrite rsum_scal, rsum_plus, rsum_const. fold total. field. exact Nz.
Qed.

(** Damping of the coherences alone, set by its rates: the populations of the
    mass states stay, every coherence is damped. *)
Definition phase_rates (n : nat) (gamma : R) (k : nat) : R := if Nat.eqb (k / n) (k mod n) then 0 else gamma.
Theorem c77_phase_rates gamma o s E rho : (3 <= d_n o)%nat -> exists o', set_diagonal (d_n o * d_n o) (phase_rates (d_n o) gamma) false o = (o', false) /\
  let n := d_n o in let M := of_comps n s rho in
  meq n (damping n s o' E rho) (fun a b => if Nat.eqb a b then c0 else cmult (rtc (gamma * factor o E)) (M a b)).
Proof.
  intros N. destruct (set_diagonal_plain (d_n o * d_n o) (phase_rates (d_n o) gamma) o eq_refl) as (o' & E' & En & Eo & Ep & Es & Ei & Eso & Eot & G).
  exists o'. split; [exact E'|]. intros n M a b Ha Hb. unfold damping.
  assert (D : forall k, (k < n * n)%nat -> drho o' E rho k = (factor o E * phase_rates n gamma k) * rho k).
  { intros k Hk. rewrite (diagonal_rates o' E rho (phase_rates n gamma)); rewrite ?En; auto. unfold strength, factor. rewrite Ep, Es. reflexivity. }
  rewrite (of_comps_ext n s _ _ D). unfold M.
  assert (P1 : forall r q, (r < n)%nat -> (q < n)%nat -> phase_rates n gamma (n * r + q) = if Nat.eqb r q then 0 else gamma).
  { intros r q Hr Hq. unfold phase_rates. rewrite div_row, mod_row by assumption. reflexivity. }
  destruct (Nat.eqb_spec a b) as [->|Nab].
  - rewrite on_diagonal_real. rewrite rsum_zero; [reflexivity|]. intros r Hr. rewrite P1, Nat.eqb_refl by assumption. ring.
  - rewrite (rated n s (fun k => factor o E * phase_rates n gamma k)) by (try assumption; intros r q Hr Hq; rewrite !P1, (Nat.eqb_sym q r) by assumption; reflexivity).
    rewrite P1 by assumption. rewrite (proj2 (Nat.eqb_neq a b) Nab). f_equal. f_equal. ring.
Qed.

(** RandomizePhase is not that: with three flavours the indices 3 and 8 left out
    are those of Gell-Mann, but they are used in SQuIDS's order.  Populations of
    mass states are damped, and a coherence is not. *)
Definition o_ex : decoh := make 3 true 1.
Definition split_ex : comps := fun k => if Nat.eqb k 4 then 1 else 0.
Definition coherence_ex : comps := fun k => if Nat.eqb k 3 then 1 else 0.
Theorem c77_randomize_phase_refuted : exists o', set_model RandomizePhase 1 o_ex = (o', false) /\ forall s,
  (forall a b, a <> b -> (a < 3)%nat -> (b < 3)%nat -> of_comps 3 s split_ex a b = c0) /\
  of_comps 3 s split_ex 0%nat 0%nat = rtc (s 4%nat) /\ damping 3 s o' 1 split_ex 0%nat 0%nat = rtc (s 4%nat) /\
  of_comps 3 s coherence_ex 0%nat 1%nat = mkC 0 (- s 3%nat) /\ (forall a b, damping 3 s o' 1 coherence_ex a b = c0).
Proof.
  destruct (model_set RandomizePhase 1 o_ex) as (o' & E' & En & _ & _ & F & D). exists o'. split; [exact E'|]. intro s.
  assert (F1 : factor o_ex 1 = 1) by (unfold factor, o_ex, make; cbn; rewrite Rpower_O; [reflexivity|lra]).
  assert (Split : forall k, (k < 9)%nat -> drho o' 1 split_ex k = split_ex k).
  { intros k Hk. rewrite D by exact Hk. rewrite F1. unfold split_ex. destruct (Nat.eqb_spec k 4) as [->|]; [cbn; ring|ring]. }
  assert (Coh : forall k, (k < 9)%nat -> drho o' 1 coherence_ex k = 0 * coherence_ex k).
  { intros k Hk. rewrite D by exact Hk. rewrite F1. unfold coherence_ex. destruct (Nat.eqb_spec k 3) as [->|]; [cbn; ring|ring]. }
  assert (P44 : of_comps 3 s split_ex 0%nat 0%nat = rtc (s 4%nat)).
  { rewrite on_diagonal_real. f_equal. cbn. unfold split_ex. cbn. ring. }
  split; [|split; [|split; [|split]]].
  - intros a b N Ha Hb. rewrite off_diagonal by assumption. unfold entry.
    assert (Z : forall r q, r <> q -> (r < 3)%nat -> (q < 3)%nat -> split_ex (3 * r + q)%nat = 0).
    { intros r q Nrq Hr Hq. unfold split_ex. replace (Nat.eqb (3 * r + q) 4) with false; [reflexivity|]. symmetry. apply Nat.eqb_neq. lia. }
    rewrite !Z by (try assumption; congruence). apply Ceq; cbn; ring.
  - exact P44.
  - unfold damping. rewrite (of_comps_ext 3 s _ split_ex Split). exact P44.
  - rewrite off_diagonal by lia. unfold entry, coherence_ex, part. cbn. apply Ceq; cbn; ring.
  - intros a b. unfold damping. rewrite (of_comps_ext 3 s _ _ Coh), of_comps_scale. apply Ceq; cbn; ring.
Qed.

(** ** The interaction picture *)

(** The density matrix is that of the interaction picture.  Rates that treat the
    two parts of every coherence alike mean the same there: damping and then
    turning is turning and then damping. *)
Theorem c77_picture o s E H t g c c' : (forall k, (k < d_n o * d_n o)%nat -> s k <> 0) -> alike (d_n o) g ->
  (forall i j, (i < d_n o * d_n o)%nat -> (j < d_n o * d_n o)%nat -> get_gamma o i j = if Nat.eqb i j then g i else 0) ->
  let n := d_n o in
  meq n (of_comps n s c') (evolve H t (of_comps n s c)) ->
  meq n (damping n s o E c') (evolve H t (damping n s o E c)).
Proof.
  intros Sn A G n M.
  assert (D : forall rho k, (k < n * n)%nat -> drho o E rho k = (factor o E * g k) * rho k).
  { intros rho k Hk. apply (diagonal_rates o E rho g G k Hk). }
  assert (A' : alike n (fun k => factor o E * g k)) by (intros r q Hr Hq; f_equal; exact (A r q Hr Hq)).
  intros a b Ha Hb. unfold damping. rewrite (of_comps_ext n s _ _ (D c')). unfold evolve at 1. rewrite (of_comps_ext n s _ _ (D c)).
  destruct (Nat.eq_dec a b) as [->|N].
  - replace ((re (H b b) - re (H b b)) * t) with 0 by ring. rewrite cexp_0.
    rewrite !on_diagonal_real.
    assert (Z : forall r, (r < n)%nat -> (c' (n * r + r)%nat - c (n * r + r)%nat) * s (n * r + r)%nat = 0).
    { apply diag_zero. intros x Hx. pose proof (M x x Hx Hx) as Mx. unfold evolve in Mx.
      replace ((re (H x x) - re (H x x)) * t) with 0 in Mx by ring. rewrite cexp_0, !on_diagonal_real in Mx.
      apply (f_equal re) in Mx. cbn in Mx.
      rewrite (rsum_ext n _ (fun r => c' (n * r + r)%nat * s (n * r + r)%nat * dg r x + (-1) * (c (n * r + r)%nat * s (n * r + r)%nat * dg r x))) by (intros; ring).
      rewrite rsum_plus, rsum_scal. lra. }
    replace (rsum n (fun r => factor o E * g (n * r + r)%nat * c' (n * r + r)%nat * s (n * r + r)%nat * dg r b))
      with (rsum n (fun r => factor o E * g (n * r + r)%nat * c (n * r + r)%nat * s (n * r + r)%nat * dg r b)); [ring|].
    apply rsum_ext. intros r Hr. pose proof (Z r Hr) as Zr.
    assert (Sr : s (n * r + r)%nat <> 0) by (apply Sn; fold n; nia).
    assert (c' (n * r + r)%nat = c (n * r + r)%nat) as ->; [|reflexivity].
    apply Rmult_integral in Zr. destruct Zr; [lra|contradiction].
  - rewrite !(rated n s (fun k => factor o E * g k)) by assumption. rewrite (M a b Ha Hb). unfold evolve. ring.
Qed.

(** The rates of RandomizePhase do not: what is damped depends on the time.
    A coherence that is not damped now is damped a quarter turn later. *)
Definition turn_h : mat := fun a b => if Nat.eqb a 1 && Nat.eqb b 1 then rtc (PI / 2) else c0.
Definition turned_ex (s : nat -> R) : comps := fun k => if Nat.eqb k 1 then - s 3%nat / s 1%nat else 0.
Theorem c77_phase_picture_refuted : exists o', set_model RandomizePhase 1 o_ex = (o', false) /\ forall s, s 1%nat <> 0 -> s 3%nat <> 0 ->
  meq 3 (of_comps 3 s (turned_ex s)) (evolve turn_h 1 (of_comps 3 s coherence_ex)) /\
  (forall a b, damping 3 s o' 1 coherence_ex a b = c0) /\ damping 3 s o' 1 (turned_ex s) 0%nat 1%nat = rtc (- s 3%nat).
Proof.
  destruct c77_randomize_phase_refuted as (o' & E' & R'). destruct (model_set RandomizePhase 1 o_ex) as (o2 & E2 & En & _ & _ & F & D).
  assert (o2 = o') as -> by congruence. exists o'. split; [exact E'|]. intros s S1 S3. split; [|split; [apply R'|]].
  - assert (Z1 : forall a, (a < 3)%nat -> of_comps 3 s (turned_ex s) a a = c0).
    { intros a Ha. rewrite on_diagonal_real, rsum_zero; [reflexivity|]. intros r Hr. unfold turned_ex. replace (Nat.eqb (3 * r + r) 1) with false; [ring|]. symmetry. apply Nat.eqb_neq. lia. }
    assert (Z2 : forall a, (a < 3)%nat -> of_comps 3 s coherence_ex a a = c0).
    { intros a Ha. rewrite on_diagonal_real, rsum_zero; [reflexivity|]. intros r Hr. unfold coherence_ex. replace (Nat.eqb (3 * r + r) 3) with false; [ring|]. symmetry. apply Nat.eqb_neq. lia. }
    intros a b Ha Hb. unfold evolve. destruct (Nat.eq_dec a b) as [->|N]; [rewrite Z1, Z2 by exact Hb; ring|].
    rewrite !off_diagonal by assumption. unfold entry, coherence_ex, turned_ex, part, turn_h.
    destruct a as [|[|[|a]]]; try lia; destruct b as [|[|[|b]]]; try lia; cbn; apply Ceq; cbn;
      rewrite ?Rminus_0_r, ?Rminus_0_l, ?Rmult_1_r, ?sin_neg, ?cos_neg, ?sin_PI2, ?cos_PI2; try ring; field; assumption.
  - unfold damping. rewrite (of_comps_ext 3 s _ (turned_ex s)).
    + rewrite off_diagonal by lia. unfold entry, turned_ex, part. cbn. apply Ceq; cbn; [field; exact S1|ring].
    + intros k Hk. rewrite D by exact Hk. unfold factor, o_ex, make. cbn [d_scale d_power]. rewrite Rpower_O by lra.
      unfold turned_ex. destruct (Nat.eqb_spec k 1) as [->|]; [cbn; ring|ring].
Qed.

(** ** Signs *)

(** SQuIDS's generators 3, 6 and 7 are minus those of Gell-Mann.  An element
    between two generators of which one is turned round gets the wrong sign:
    what should feed the second coherence into the first takes it out. *)
Definition cross_ex (i j : nat) : R := if Nat.eqb i 1 && Nat.eqb j 2 then 1 else 0.
Theorem c77_signs_refuted : exists o', set_gamma 9 9 cross_ex true o_ex = (o', false) /\ forall s, s 1%nat = 1 -> s 3%nat = -1 ->
  let second : comps := fun k => if Nat.eqb k 3 then -1 else 0 in
  meq 3 (of_comps 3 s second) (gell_mann 2) /\ meq 3 (damping 3 s o' 1 second) (mscale (-1) (gell_mann 1)).
Proof.
  destruct (set_standard cross_ex (d_gamma o_ex)) as (h & E & H). exists (with_gamma o_ex h). split; [unfold set_gamma; cbn [d_n o_ex make Nat.mul Nat.add Nat.eqb negb orb]; rewrite E; reflexivity|].
  intros s S1 S3 second. split.
  - intros a b Ha Hb. destruct (Nat.eq_dec a b) as [->|N].
    + rewrite on_diagonal_real, rsum_zero.
      * destruct b as [|[|[|b]]]; try lia; reflexivity.
      * intros r Hr. unfold second. replace (Nat.eqb (3 * r + r) 3) with false; [ring|]. symmetry. apply Nat.eqb_neq. lia.
    + rewrite off_diagonal by assumption. unfold entry, second, part.
      destruct a as [|[|[|a]]]; try lia; destruct b as [|[|[|b]]]; try lia; cbn; apply Ceq; cbn; rewrite ?S3; ring.
  - assert (D : forall k, (k < 9)%nat -> drho (with_gamma o_ex h) 1 second k = if Nat.eqb k 1 then -1 else 0).
    { intros k Hk. destruct (mu3_onto k Hk) as (i & Hi & <-). unfold drho. cbn [with_gamma d_n d_gamma o_ex make Nat.mul Nat.add].
      assert (St : strength (with_gamma o_ex h) 1 = 1) by (unfold strength; cbn; apply Rpower_O; lra).
      unfold o_ex, make, with_gamma in St. cbn in St.
      assert (H3 : h (mu3 i) 3%nat = cross_ex i 2) by (rewrite <- (H i 2%nat Hi) by lia; reflexivity).
      cbn [rsum]. unfold second. cbn [Nat.eqb]. unfold with_gamma, o_ex, make. cbn [d_n d_on d_power d_scale d_inter d_sources d_other d_gamma]. rewrite St, H3.
      unfold cross_ex. do 9 (destruct i as [|i]; [cbn; ring|]). lia. }
    intros a b Ha Hb. unfold damping. rewrite (of_comps_ext 3 s _ _ D). destruct (Nat.eq_dec a b) as [->|N].
    + rewrite on_diagonal_real, rsum_zero.
      * destruct b as [|[|[|b]]]; try lia; apply Ceq; cbn; ring.
      * intros r Hr. replace (Nat.eqb (3 * r + r) 1) with false; [ring|]. symmetry. apply Nat.eqb_neq. lia.
    + rewrite off_diagonal by assumption. unfold entry, part, mscale.
      destruct a as [|[|[|a]]]; try lia; destruct b as [|[|[|b]]]; try lia; cbn; apply Ceq; cbn; rewrite ?S1; ring.
Qed.

(** ** When it acts *)

(** Switched off it is nuSQUIDS; on, the damping is taken from the rate, if the
    object has interactions. *)
Theorem c77_acts o E base rho :
  interactions (enable false o) E base rho = base /\
  (d_other o = true -> forall k, other_terms (enable true o) E base rho k = base k - drho (enable true o) E rho k) /\
  (forall n GeV, d_other (make n true GeV) = true /\ d_on (make n true GeV) = true).
Proof.
  split; [reflexivity|]. split; [|intros; split; reflexivity].
  intros H k. unfold other_terms, interactions. cbn [enable d_other d_on]. rewrite H. reflexivity.
Qed.

(** Without interactions (and sources) the term is never asked for, though
    decoherence is on and rates are set; nor in media of constant density. *)
Theorem c77_without_interactions_refuted : forall n GeV m gamma E base rho, exists o',
  set_model m gamma (enable true (make n false GeV)) = (o', false) /\ d_on o' = true /\ other_terms o' E base rho = (fun _ => 0).
Proof.
  intros n GeV m gamma E base rho. destruct (model_set m gamma (enable true (make n false GeV))) as (o' & E' & _ & Eon & Eot & _).
  exists o'. split; [exact E'|]. split; [rewrite Eon; reflexivity|]. unfold other_terms. rewrite Eot. reflexivity.
Qed.
Theorem c77_constant_refuted : forall n GeV m gamma E base solve turn rho, exists o',
  set_model m gamma (set_sources true (enable true (make n false GeV))) = (o', false) /\ d_on o' = true /\
  (forall k, other_terms o' E base rho k = base k - drho o' E rho k) /\
  evolve_state o' E true true base solve turn rho = turn rho.
Proof.
  intros n GeV m gamma E base solve turn rho. set (o := set_sources true (enable true (make n false GeV))).
  unfold set_model. destruct (set_diagonal_plain (d_n o * d_n o) (model_rates m gamma) o eq_refl) as (o' & E' & En & Eo & Ep & Es & Ei & Eso & Eot & G).
  exists o'. split; [exact E'|]. split; [rewrite Eo; reflexivity|]. split.
  - intro k. unfold other_terms, interactions. rewrite Eot, Eo. reflexivity.
  - unfold evolve_state. rewrite Ei. reflexivity.
Qed.

(** A case: three flavours with interactions, rates as in the example. *)
Definition full_ex : comps := fun k => INR k.
Example c77_nonvacuous : exists o', set_model RandomizeState 2 (set_scale 10 (set_power 2 o_ex)) = (o', false) /\
  other_terms o' 20 (fun _ => 1) full_ex 0%nat = 1 /\ other_terms o' 20 (fun _ => 1) full_ex 5%nat = -39 /\ alike 3 (model_rates RandomizeState 2).
Proof.
  set (o := set_scale 10 (set_power 2 o_ex)). destruct (model_set RandomizeState 2 o) as (o' & E' & En & Eon & Eot & F & D).
  exists o'. split; [exact E'|].
  assert (F4 : factor o 20 = 4).
  { unfold factor, o. cbn [set_scale set_power d_scale d_power o_ex make]. replace 2 with (INR 2) by (cbn; ring). rewrite Rpower_pow by (cbn; lra). cbn. field. }
  assert (V : forall k, (k < 9)%nat -> other_terms o' 20 (fun _ => 1) full_ex k = 1 - 4 * model_rates RandomizeState 2 k * INR k).
  { intros k Hk. unfold other_terms, interactions. rewrite Eot, Eon. cbn [o set_scale set_power o_ex make d_other d_on]. rewrite D by exact Hk. rewrite F4. reflexivity. }
  split; [|split].
  - rewrite V by lia. cbn. ring.
  - rewrite V by lia. cbn. ring.
  - intros r q Hr Hq. cbn [model_rates]. unfold fill. destruct (Nat.eqb_spec (3 * r + q) 0), (Nat.eqb_spec (3 * q + r) 0); (reflexivity || lia).
Qed.

Print Assumptions c77_rates_read_back.
Print Assumptions c77_standard_order.
Print Assumptions c77_standard_three.
Print Assumptions c77_randomize_state.
Print Assumptions c77_neutrino_loss.
Print Assumptions c77_contents.
Print Assumptions c77_phase_rates.
Print Assumptions c77_randomize_phase_refuted.
Print Assumptions c77_picture.
Print Assumptions c77_phase_picture_refuted.
Print Assumptions c77_signs_refuted.
Print Assumptions c77_acts.
Print Assumptions c77_without_interactions_refuted.
Print Assumptions c77_constant_refuted.
Print Assumptions c77_nonvacuous.
