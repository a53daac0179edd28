(** C78, C79: the extensions for non-standard interactions and Lorentz violation
    (ExtModel.v). *)
From Coq Require Import Reals List Arith Bool ZArith Lia Lra.
From Verif Require Import CMatrix FlavorModel FlavorProofs FlavorEqn ExtModel ExtProofs.
Import ListNotations.
Open Scope R_scope.

(** The states of the flavours that EvalFlavor reads in the interaction basis,
    as columns; in the mass basis they are not turned. *)
Definition flavours (order : list (nat * nat)) (th dl : angles) (nt : nutype) (rho : nat) (H : mat) (dt : R) : mat :=
  turned H dt (mixing 3 th (fixed_phases nt rho dl) order).
Lemma flavours_read order th dl nt rho H t t0 : pairs_ok 3 order -> unitary 3 (flavours order th dl nt rho H (t - t0)) /\
  frame 3 (flavours order th dl nt rho H (t - t0)) (evolved H t t0 (b1_proj 3 th dl order nt rho)).
Proof.
  intro O. split; [apply turned_unitary, mixing_unitary, O|]. apply (frame_evolve 3 H (t - t0)). apply frame_b1.
Qed.
Lemma phases_kept nt rho dl : anti_type nt rho = false \/ (forall i j, dl i j = 0) -> forall i j, fixed_phases nt rho dl i j = dl i j.
Proof.
  intros C i j. unfold fixed_phases. destruct nt; cbn [anti_type] in C; [reflexivity| |destruct (Nat.eqb rho 1)]; try reflexivity;
    (destruct C as [C|C]; [discriminate|]); rewrite C; ring.
Qed.
Lemma seen_by_flavours order th dl nt rho H dt M : pairs_ok 3 order -> anti_type nt rho = false \/ (forall i j, dl i j = 0) ->
  meq 3 (seen 3 (flavours order th dl nt rho H dt) (evolve H dt (to_mass order th dl M))) M.
Proof.
  intros O C. unfold flavours. rewrite (mixing_ext 3 th th _ dl order (fun _ _ => eq_refl) (phases_kept nt rho dl C)).
  apply seen_evolved, mixing_unitary, O.
Qed.

(** ** C78 *)

(** After Set_mutau (and until an angle or phase is set) the interaction between
    muons and taus that is added is, as flavours are read in the interaction
    basis, exactly 3 cc epsilon, with the other sign for antineutrinos, at every
    node; without the sign of the phases it needs the phases to vanish. *)
Theorem c78_term_partial order eps o H dt nt cc ei rho : pairs_ok 3 order -> (ns_ne o <= ns_len o)%nat -> (ei < ns_ne o)%nat ->
  anti_type nt rho = false \/ (forall i j, ns_dl o i j = 0) ->
  exists o', nsi_prederive H dt (set_mutau order eps o) = Some o' /\
  meq 3 (seen 3 (flavours order (ns_th o) (ns_dl o) nt rho (H ei) dt) (nsi_term nt cc o' ei rho))
    (fun a b => if (Nat.eqb a 1 && Nat.eqb b 2) || (Nat.eqb a 2 && Nat.eqb b 1)
                then rtc ((if anti_type nt rho then -1 else 1) * (3 * cc) * eps) else c0).
Proof.
  intros O L Hei C. unfold nsi_prederive, set_mutau. cbn [ns_ne ns_len ns_op ns_evol ns_eps ns_th ns_dl].
  rewrite (proj2 (Nat.leb_le _ _) L). eexists. split; [reflexivity|].
  unfold nsi_term. cbn [ns_evol]. rewrite (proj2 (Nat.ltb_lt _ _) Hei).
  pose proof (seen_by_flavours order (ns_th o) (ns_dl o) nt rho (H ei) dt (mutau eps) O C) as S0.
  assert (S1 : forall x, meq 3 (seen 3 (flavours order (ns_th o) (ns_dl o) nt rho (H ei) dt) (mscale x (evolve (H ei) dt (to_mass order (ns_th o) (ns_dl o) (mutau eps))))) (mscale x (mutau eps))).
  { intro x. eapply meq_trans; [apply seen_scale|]. intros a b Ha Hb. unfold mscale. rewrite (S0 a b Ha Hb). reflexivity. }
  intros a b Ha Hb. destruct (anti_type nt rho).
  - rewrite (seen_scale 3 _ (-1) _ a b Ha Hb). unfold mscale at 1. rewrite (S1 (3 * cc) a b Ha Hb). unfold mscale, mutau.
    destruct a as [|[|[|a]]]; try lia; destruct b as [|[|[|b]]]; try lia; apply Ceq; cbn; ring.
  - rewrite (S1 (3 * cc) a b Ha Hb). unfold mscale, mutau.
    destruct a as [|[|[|a]]]; try lia; destruct b as [|[|[|b]]]; try lia; apply Ceq; cbn; ring.
Qed.

(** The constructor gives the same operator as Set_mutau. *)
Theorem c78_constructed order eps ne th0 dl0 a01 a02 a12 : exists o, nsi_make order eps ne th0 dl0 a01 a02 a12 = set_mutau order eps o /\
  ns_eps (nsi_make order eps ne th0 dl0 a01 a02 a12) = eps /\ ns_len o = ne /\ ns_ne o = ne /\
  ns_th o 0%nat 1%nat = a01 /\ ns_th o 0%nat 2%nat = a02 /\ ns_th o 1%nat 2%nat = a12 /\ ns_dl o = dl0.
Proof.
  exists (nsi_make order eps ne th0 dl0 a01 a02 a12). repeat (split; [reflexivity|]). reflexivity.
Qed.

(** The interaction moves neutrinos between muons and taus only: it leaves the
    rate of the electron flavour, and the total, alone. *)
Theorem c78_electron_partial order eps o H t t0 nt cc ei rho state : pairs_ok 3 order -> (ns_ne o <= ns_len o)%nat -> (ei < ns_ne o)%nat ->
  anti_type nt rho = false \/ (forall i j, ns_dl o i j = 0) ->
  exists o', nsi_prederive H (t - t0) (set_mutau order eps o) = Some o' /\
  let P := evolved (H ei) t t0 (b1_proj 3 (ns_th o) (ns_dl o) order nt rho) in
  expect 3 (P 0%nat) (coherent 3 (nsi_term nt cc o' ei rho) state) = 0 /\
  expect 3 (P 1%nat) (coherent 3 (nsi_term nt cc o' ei rho) state) = - expect 3 (P 2%nat) (coherent 3 (nsi_term nt cc o' ei rho) state).
Proof.
  intros O L Hei C. destruct (c78_term_partial order eps o H (t - t0) nt cc ei rho O L Hei C) as (o' & E & S0). exists o'. split; [exact E|].
  intro P. destruct (flavours_read order (ns_th o) (ns_dl o) nt rho (H ei) t t0 O) as [U F]. fold P in F.
  set (V := flavours order (ns_th o) (ns_dl o) nt rho (H ei) (t - t0)) in *. set (Q := nsi_term nt cc o' ei rho) in *.
  assert (E0 : expect 3 (P 0%nat) (coherent 3 Q state) = 0).
  { apply (untouched 3 V P Q state 0 U F); [lia|]. intros j Hj. rewrite (S0 0%nat j), (S0 j 0%nat) by lia.
    destruct j as [|[|[|j]]]; try lia; split; reflexivity. }
  split; [exact E0|].
  pose proof (frame_total 3 V P (coherent 3 Q state) U F) as T. cbn [rsum] in T. rewrite E0, coherent_trace in T. cbn [re c0] in T. lra.
Qed.

(** *** Where it goes wrong: all in the space of muon and tau *)
Definition pairs_all : list (nat * nat) := [(0, 1); (0, 2); (1, 2)]%nat.
Lemma pairs_all_ok : pairs_ok 3 pairs_all.
Proof. repeat constructor; cbn; lia. Qed.
Lemma pairs_all_once : NoDup pairs_all.
Proof. repeat constructor; cbn; intuition congruence. Qed.
Definition quarter : angles := set2 (fun _ _ => 0) 1 2 (PI / 2).
Definition none : angles := fun _ _ => 0.
Lemma mixing_quarter dl : meq 3 (mixing 3 quarter dl pairs_all) (rot 1 2 (PI / 2) (dl 1%nat 2%nat)).
Proof.
  apply (mixing_one 3 quarter dl pairs_all 1 2 pairs_all_ok pairs_all_once); [cbn; auto|].
  intros i j I N. unfold quarter, set2. destruct (Nat.eqb_spec i 1) as [->|]; [|reflexivity]. destruct (Nat.eqb_spec j 2) as [->|]; [congruence|reflexivity].
Qed.
Lemma mixing_nothing dl : meq 3 (mixing 3 none dl pairs_all) mid.
Proof. apply mixing_none; [exact pairs_all_ok|reflexivity]. Qed.
Lemma to_mass_none dl M : meq 3 (to_mass pairs_all none dl M) M.
Proof.
  unfold to_mass, rotate_b1. eapply meq_trans; [apply mmult_meq; [apply mmult_meq; [apply mixing_nothing|apply meq_refl]|apply dagger_meq, mixing_nothing]|].
  eapply meq_trans; [apply mmult_meq; [apply mmult_id_l|apply meq_refl]|].
  eapply meq_trans; [apply mmult_meq; [apply meq_refl|]|apply mmult_id_r].
  intros a b _ _. unfold dagger, mid, delta. rewrite Nat.eqb_sym. destruct (Nat.eqb a b); apply Ceq; cbn; ring.
Qed.
Definition turn12 (d : R) : mat := fun a b =>
  match a, b with
  | 0%nat, 0%nat => c1 | 1%nat, 2%nat => cexp (- d) | 2%nat, 1%nat => cmult (rtc (-1)) (cexp d) | _, _ => c0
  end.
Lemma rot_quarter d : meq 3 (rot 1 2 (PI / 2) d) (turn12 d).
Proof.
  intros a b Ha Hb. unfold rot, turn12, delta. rewrite sin_PI2, cos_PI2.
  destruct a as [|[|[|a]]]; try lia; destruct b as [|[|[|b]]]; try lia; unfold cexp; apply Ceq; cbn; ring.
Qed.
Lemma seen_turned n H t V X : meq n (seen n (turned H t V) (evolve H t X)) (seen n V X).
Proof.
  intros i j Hi Hj. unfold seen, mmult, dagger, turned, evolve. apply csum_ext. intros k Hk.
  rewrite conj_mult, cexp_conj. rewrite <- !csum_mult_l. apply csum_ext. intros l Hl.
  pose proof (cexp_plus (- (re (H k k) * t)) ((re (H k k) - re (H l l)) * t)) as E1.
  pose proof (cexp_plus (- (re (H k k) * t) + (re (H k k) - re (H l l)) * t) (re (H l l) * t)) as E2.
  replace (- (re (H k k) * t) + (re (H k k) - re (H l l)) * t + re (H l l) * t) with 0 in E2 by ring. rewrite cexp_0, <- E1 in E2.
  transitivity (cmult (cmult (cmult (cexp (- (re (H k k) * t))) (cexp ((re (H k k) - re (H l l)) * t))) (cexp (re (H l l) * t))) (cmult (cconj (V k i)) (cmult (X k l) (V l j)))); [ring|rewrite E2; ring].
Qed.
(** an operator between muon and tau, rotated with one phase and seen with another *)
Lemma seen_quarter d d' x : seen 3 (turn12 d') (rotate_b1 3 (turn12 d) (mutau x)) 1%nat 2%nat = cmult (rtc x) (cexp (2 * d - 2 * d')).
Proof.
  replace (2 * d - 2 * d') with (- d' + (- d' + (d + d))) by ring. rewrite <- !cexp_plus.
  unfold seen, rotate_b1, mmult, dagger. cbn [csum turn12 mutau].
  unfold cexp. rewrite !cos_neg, !sin_neg. apply Ceq; cbn; ring.
Qed.

(** With a CP phase the interaction antineutrinos feel is not the one given:
    here it has the sign of the neutrinos. *)
Theorem c78_antineutrino_refuted : let dl := set2 none 1 2 (PI / 4) in forall eps ne H dt cc ei, (ei < ne)%nat ->
  exists o', nsi_prederive H dt (set_mutau pairs_all eps (Nsi 0 mzero (fun _ => mzero) ne quarter dl ne)) = Some o' /\
  seen 3 (flavours pairs_all quarter dl Antineutrino 0 (H ei) dt) (nsi_term Antineutrino cc o' ei 0) 1%nat 2%nat = rtc (3 * cc * eps).
Proof.
  intros dl eps ne H dt cc ei Hei. unfold nsi_prederive, set_mutau. cbn [ns_ne ns_len ns_op ns_evol ns_eps ns_th ns_dl].
  rewrite Nat.leb_refl. eexists. split; [reflexivity|]. unfold nsi_term. cbn [anti_type ns_evol]. rewrite (proj2 (Nat.ltb_lt _ _) Hei).
  rewrite (seen_scale 3 _ (-1) _ 1%nat 2%nat) by lia. unfold mscale at 1. rewrite (seen_scale 3 _ (3 * cc) _ 1%nat 2%nat) by lia. unfold mscale.
  unfold flavours. rewrite (seen_turned 3 (H ei) dt _ _ 1%nat 2%nat) by lia.
  rewrite (seen_meq 3 _ (turn12 (- (PI / 4))) _ (rotate_b1 3 (turn12 (PI / 4)) (mutau eps))); try lia.
  - rewrite seen_quarter. replace (2 * (PI / 4) - 2 * - (PI / 4)) with PI by field. unfold cexp. rewrite cos_PI, sin_PI. apply Ceq; cbn; ring.
  - eapply meq_trans; [apply mixing_quarter|]. unfold fixed_phases, dl. rewrite set2_same. apply rot_quarter.
  - unfold to_mass, rotate_b1. apply mmult_meq; [apply mmult_meq; [|apply meq_refl]|apply dagger_meq];
      (eapply meq_trans; [apply mixing_quarter|]; unfold dl; rewrite set2_same; apply rot_quarter).
Qed.

(** After Set_MixingAngle the operator is the old one: here with the wrong sign. *)
Theorem c78_stale_refuted : forall eps ne H dt cc ei, (ei < ne)%nat ->
  exists o', nsi_prederive H dt (nsi_angle 1 2 (PI / 2) (set_mutau pairs_all eps (Nsi 0 mzero (fun _ => mzero) ne none none ne))) = Some o' /\
  ns_th o' = quarter /\
  seen 3 (flavours pairs_all quarter none Neutrino 0 (H ei) dt) (nsi_term Neutrino cc o' ei 0) 1%nat 2%nat = rtc (- (3 * cc * eps)).
Proof.
  intros eps ne H dt cc ei Hei. unfold nsi_prederive, set_mutau, nsi_angle. cbn [ns_ne ns_len ns_op ns_evol ns_eps ns_th ns_dl].
  rewrite Nat.leb_refl. eexists. split; [reflexivity|]. split; [reflexivity|]. unfold nsi_term. cbn [anti_type ns_evol]. rewrite (proj2 (Nat.ltb_lt _ _) Hei).
  rewrite (seen_scale 3 _ (3 * cc) _ 1%nat 2%nat) by lia. unfold mscale.
  unfold flavours. rewrite (seen_turned 3 (H ei) dt _ _ 1%nat 2%nat) by lia.
  rewrite (seen_meq 3 _ (turn12 0) _ (mutau eps)); try lia.
  - unfold seen, mmult, dagger. cbn [csum turn12 mutau]. unfold cexp. rewrite Ropp_0, cos_0, sin_0. apply Ceq; cbn; ring.
  - eapply meq_trans; [apply mixing_quarter|]. apply rot_quarter.
  - apply to_mass_none.
Qed.

(** In the mass basis, which the shortcut for media of constant density uses,
    the operator is turned all the same though the flavours are not. *)
Definition apart : mat := fun a b => if Nat.eqb a 1 && Nat.eqb b 1 then rtc PI else c0.
Theorem c78_mass_basis_refuted : forall eps ne cc ei, (ei < ne)%nat ->
  exists o', nsi_prederive (fun _ => apart) 1 (set_mutau pairs_all eps (Nsi 0 mzero (fun _ => mzero) ne none none ne)) = Some o' /\
  seen 3 (mixing 3 none (fixed_phases Neutrino 0 none) pairs_all) (nsi_term Neutrino cc o' ei 0) 1%nat 2%nat = rtc (- (3 * cc * eps)).
Proof.
  intros eps ne cc ei Hei. unfold nsi_prederive, set_mutau. cbn [ns_ne ns_len ns_op ns_evol ns_eps ns_th ns_dl].
  rewrite Nat.leb_refl. eexists. split; [reflexivity|]. unfold nsi_term. cbn [anti_type ns_evol]. rewrite (proj2 (Nat.ltb_lt _ _) Hei).
  rewrite (seen_scale 3 _ (3 * cc) _ 1%nat 2%nat) by lia. unfold mscale.
  rewrite (seen_meq 3 _ mid _ (evolve apart 1 (mutau eps))); try lia.
  - unfold seen, mmult, dagger. cbn [csum]. unfold mid, delta. cbn [Nat.eqb]. unfold evolve, apart. cbn [Nat.eqb andb mutau re].
    unfold cexp. replace ((PI - 0) * 1) with PI by ring. unfold c0, rtc. cbn [re im]. rewrite ?Rminus_0_r, ?Rmult_1_r. rewrite cos_PI, sin_PI. apply Ceq; cbn; ring.
  - apply mixing_nothing.
  - intros a b Ha Hb. unfold evolve. rewrite (to_mass_none none (mutau eps) a b Ha Hb). reflexivity.
Qed.

(** A state read from a file brings its epsilon but not its operator, and a
    grid with more energies does not bring room for the evolved operators. *)
Theorem c78_read_refuted : forall order eps eps' f ne H dt cc ei, (ei < ne)%nat -> pairs_ok 3 order ->
  let written := nsi_write (set_mutau order eps (Nsi 0 mzero (fun _ => mzero) ne none none ne)) f in
  let reader := nsi_read ne none none written (set_mutau order eps' (Nsi 0 mzero (fun _ => mzero) ne none none ne)) in
  ns_eps reader = eps /\
  exists o', nsi_prederive H dt reader = Some o' /\
  seen 3 (flavours order none none Neutrino 0 (H ei) dt) (nsi_term Neutrino cc o' ei 0) 1%nat 2%nat = rtc (3 * cc * eps').
Proof.
  intros order eps eps' f ne H dt cc ei Hei O written reader. split; [reflexivity|].
  unfold reader, nsi_read, nsi_prederive, set_mutau. cbn [ns_ne ns_len ns_op ns_evol ns_eps ns_th ns_dl].
  rewrite Nat.leb_refl. eexists. split; [reflexivity|]. unfold nsi_term. cbn [anti_type ns_evol]. rewrite (proj2 (Nat.ltb_lt _ _) Hei).
  rewrite (seen_scale 3 _ (3 * cc) _ 1%nat 2%nat) by lia. unfold mscale.
  rewrite (seen_by_flavours order none none Neutrino 0 (H ei) dt (mutau eps') O (or_introl eq_refl) 1%nat 2%nat) by lia.
  apply Ceq; cbn; ring.
Qed.
Theorem c78_read_outside_refuted : forall ne th dl f o H dt, (ns_len o < ne)%nat -> nsi_prederive H dt (nsi_read ne th dl f o) = None.
Proof.
  intros ne th dl f o H dt L. unfold nsi_prederive, nsi_read. cbn [ns_ne ns_len]. rewrite (proj2 (Nat.leb_gt _ _)) by exact L. reflexivity.
Qed.
(** Setting it again after reading (on a grid that fits) gives the one written. *)
Theorem c78_read_and_set order th dl f o w : ns_eps (set_mutau order (ns_eps (nsi_read (ns_ne o) th dl (nsi_write w f) o)) (nsi_read (ns_ne o) th dl (nsi_write w f) o)) = ns_eps w /\
  ns_op (set_mutau order (ns_eps (nsi_read (ns_ne o) th dl (nsi_write w f) o)) (nsi_read (ns_ne o) th dl (nsi_write w f) o)) = to_mass order th dl (mutau (ns_eps w)).
Proof. split; reflexivity. Qed.

(** A case: real mixing, two nodes; both kinds of neutrinos. *)
Example c78_nonvacuous : let o := nsi_make pairs_all 2 2 none none 1 (1 / 2) (PI / 2) in
  pairs_ok 3 pairs_all /\ (ns_ne o <= ns_len o)%nat /\ (forall i j, ns_dl o i j = 0) /\ anti_type Both 1 = true /\
  exists o', nsi_prederive (fun _ => apart) 3 o = Some o' /\
  seen 3 (flavours pairs_all (ns_th o) none Both 1 apart 3) (nsi_term Both 5 o' 1 1) 1%nat 2%nat = rtc (-30).
Proof.
  intro o. split; [exact pairs_all_ok|]. split; [apply Nat.le_refl|]. split; [reflexivity|]. split; [reflexivity|].
  destruct (c78_term_partial pairs_all 2 o (fun _ => apart) 3 Both 5 1 1 pairs_all_ok (Nat.le_refl _) (Nat.lt_succ_diag_r 1) (or_intror (fun _ _ => eq_refl))) as (o' & E & S0).
  exists o'. split; [exact E|]. etransitivity; [exact (S0 1%nat 2%nat ltac:(lia) ltac:(lia))|]. cbn. f_equal. ring.
Qed.

(** ** C79 *)

(** What a history of calls has given: the operator, whether an angle or phase
    was set since, the power of the energy, the angles and phases. *)
Fixpoint given (cs : list lv_call) : option mat :=
  match cs with
  | [] => None
  | c :: rest =>
    match given rest with
    | Some M => Some M
    | None =>
      match c with
      | CMatrix M => Some M
      | CParams e m => Some (fun a b =>
          if Nat.eqb a 1 && Nat.eqb b 0 then e else if Nat.eqb a 0 && Nat.eqb b 1 then cconj e
          else if Nat.eqb a 2 && Nat.eqb b 1 then m else if Nat.eqb a 1 && Nat.eqb b 2 then cconj m else c0)
      | _ => None
      end
    end
  end.
Definition touches (c : lv_call) : bool := match c with CAngle _ _ _ | CPhase _ _ _ | CDefaults _ => true | _ => false end.
Definition sets (c : lv_call) : bool := match c with CMatrix _ | CParams _ _ => true | _ => false end.
(** the last call that matters set the operator *)
Definition in_force (cs : list lv_call) : Prop := exists l c r, cs = l ++ c :: r /\ sets c = true /\ Forall (fun c => touches c = false) r.
Fixpoint power_given (n : Z) (cs : list lv_call) : Z :=
  match cs with [] => n | CPower m :: rest => power_given m rest | _ :: rest => power_given n rest end.
Fixpoint angle_given (i j : nat) (x : R) (cs : list lv_call) : R :=
  match cs with
  | [] => x
  | CAngle a b y :: rest => angle_given i j (if Nat.eqb i a && Nat.eqb j b then y else x) rest
  | CDefaults v :: rest => angle_given i j
      (if Nat.eqb i 1 && Nat.eqb j 2 then v 2%nat else if Nat.eqb i 0 && Nat.eqb j 2 then v 1%nat else if Nat.eqb i 0 && Nat.eqb j 1 then v 0%nat else x) rest
  | _ :: rest => angle_given i j x rest
  end.
Fixpoint phase_given (i j : nat) (x : R) (cs : list lv_call) : R :=
  match cs with
  | [] => x
  | CPhase a b y :: rest => phase_given i j (if Nat.eqb i a && Nat.eqb j b then y else x) rest
  | CDefaults v :: rest => phase_given i j (if Nat.eqb i 0 && Nat.eqb j 2 then 0 else x) rest
  | _ :: rest => phase_given i j x rest
  end.

Lemma given_app cs c : given (cs ++ [c]) = match given [c] with Some M => Some M | None => given cs end.
Proof.
  induction cs as [|d cs IH]; cbn [app]; [destruct (given [c]); reflexivity|]. cbn [given]. cbn [given] in IH. rewrite IH.
  destruct c; reflexivity.
Qed.
Lemma power_app n cs c : power_given n (cs ++ [c]) = match c with CPower m => m | _ => power_given n cs end.
Proof. revert n. induction cs as [|d cs IH]; intro n; [destruct c; reflexivity|]. cbn [app power_given]. destruct d; apply IH. Qed.
Lemma angle_app i j x cs c : angle_given i j x (cs ++ [c]) = angle_given i j (angle_given i j x cs) [c].
Proof. revert x. induction cs as [|d cs IH]; intro x; [reflexivity|]. cbn [app angle_given]. destruct d; apply IH. Qed.
Lemma phase_app i j x cs c : phase_given i j x (cs ++ [c]) = phase_given i j (phase_given i j x cs) [c].
Proof. revert x. induction cs as [|d cs IH]; intro x; [reflexivity|]. cbn [app phase_given]. destruct d; apply IH. Qed.
Lemma force_app cs c : in_force (cs ++ [c]) <-> sets c = true \/ (touches c = false /\ in_force cs).
Proof.
  split.
  - intros (l & d & r & E & Sd & F). destruct (rev_case r) as [->|(r' & e & ->)].
    + apply app_inj_tail in E as [-> ->]. left. exact Sd.
    + rewrite app_comm_cons, app_assoc in E. apply app_inj_tail in E as [-> ->]. right. apply Forall_app in F as [F1 F2]. inversion F2; subst.
      split; [assumption|]. exists l, d, r'. auto.
  - intros [Sc|(T & l & d & r & -> & Sd & F)].
    + exists cs, c, []. auto.
    + exists l, d, (r ++ [c]). rewrite <- app_assoc. cbn. split; [reflexivity|]. split; [exact Sd|]. apply Forall_app. auto.
Qed.
Lemma to_mass_meq order th dl M M' : meq 3 M M' -> meq 3 (to_mass order th dl M) (to_mass order th dl M').
Proof. intro E. unfold to_mass, rotate_b1. apply mmult_meq; [apply mmult_meq; [apply meq_refl|exact E]|apply meq_refl]. Qed.
Lemma params_given e m M : given [CParams e m] = Some M -> meq 3 (lv_matrix e m) M.
Proof.
  intro E. injection E as <-. intros a b Ha Hb. unfold lv_matrix.
  destruct a as [|[|[|a]]]; try lia; destruct b as [|[|[|b]]]; try lia; reflexivity.
Qed.

(** For every history of calls: evolution goes on exactly when an operator was
    given and no angle or phase was set since; then the operator used is the last
    one given, rotated with the angles and phases now in use; setting an initial
    state changes none of them, whatever the kind of neutrinos. *)
Theorem c79_history order th dl nt cs : let o := lv_run order cs (lv_make th dl nt) in
  (lv_set o = true <-> in_force cs) /\
  (in_force cs -> exists M, given cs = Some M /\ meq 3 (lv_op o) (to_mass order (lv_th o) (lv_dl o) M)) /\
  lv_pow o = power_given 1 cs /\ lv_nt o = nt /\
  (forall i j, lv_th o i j = angle_given i j (th i j) cs) /\ (forall i j, lv_dl o i j = phase_given i j (dl i j) cs).
Proof.
  induction cs as [|c cs IH] using rev_ind.
  - cbn. repeat split; try discriminate; intros (l & d & r & E & _); destruct l; discriminate.
  - unfold lv_run in *. rewrite fold_left_app. cbn [fold_left]. set (o := fold_left (fun o c => lv_do order c o) cs (lv_make th dl nt)) in *.
    cbv zeta in *. destruct IH as (S1 & Op & Pw & Nt & Th & Dl). rewrite force_app, given_app, power_app.
    destruct c as [M|e m|n|i' j' x|i' j' x| |v|H dt].
    + cbn [lv_do lv_operator lv_set lv_op lv_pow lv_nt lv_th lv_dl sets touches given].
      split; [intuition|]. split; [intros _; exists M; split; [reflexivity|apply meq_refl]|]. split; [exact Pw|]. split; [exact Nt|].
      split; intros i j; rewrite ?angle_app, ?phase_app; cbn [angle_given phase_given]; auto.
    + cbn [lv_do lv_params lv_operator lv_set lv_op lv_pow lv_nt lv_th lv_dl sets touches].
      split; [intuition|]. split; [intros _; eexists; split; [reflexivity|apply to_mass_meq, params_given; reflexivity]|]. split; [exact Pw|]. split; [exact Nt|].
      split; intros i j; rewrite ?angle_app, ?phase_app; cbn [angle_given phase_given]; auto.
    + cbn [lv_do lv_power lv_set lv_op lv_pow lv_nt lv_th lv_dl sets touches given].
      split; [intuition congruence|]. split; [intros [X|[_ X]]; [discriminate|apply Op; exact X]|]. split; [reflexivity|]. split; [exact Nt|].
      split; intros i j; rewrite ?angle_app, ?phase_app; cbn [angle_given phase_given]; auto.
    + cbn [lv_do lv_angle lv_set lv_op lv_pow lv_nt lv_th lv_dl sets touches given].
      split; [intuition congruence|]. split; [intros [X|[X _]]; discriminate|]. split; [exact Pw|]. split; [exact Nt|].
      split; intros i j; rewrite ?angle_app, ?phase_app; cbn [angle_given phase_given]; auto. unfold set2. rewrite Th. reflexivity.
    + cbn [lv_do lv_phase lv_set lv_op lv_pow lv_nt lv_th lv_dl sets touches given].
      split; [intuition congruence|]. split; [intros [X|[X _]]; discriminate|]. split; [exact Pw|]. split; [exact Nt|].
      split; intros i j; rewrite ?angle_app, ?phase_app; cbn [angle_given phase_given]; auto. unfold set2. rewrite Dl. reflexivity.
    + cbn [lv_do sets touches given]. destruct (lv_initial_keeps o) as ((K1 & K2 & K3 & _ & K5) & D & S2).
      split; [rewrite S2; intuition congruence|]. split.
      * intros [X|[_ X]]; [discriminate|]. destruct (Op X) as (M & G & E). exists M. split; [exact G|].
        rewrite K2, K1. rewrite (to_mass_ext order (lv_th o) (lv_th o) _ (lv_dl o) M (fun _ _ => eq_refl) D). exact E.
      * split; [congruence|]. split; [congruence|]. split; intros i j; rewrite ?angle_app, ?phase_app; cbn [angle_given phase_given]; [rewrite K1; apply Th|rewrite D; apply Dl].
    + cbn [lv_do lv_defaults lv_angle lv_phase lv_set lv_op lv_pow lv_nt lv_th lv_dl sets touches given].
      split; [intuition congruence|]. split; [intros [X|[X _]]; discriminate|]. split; [exact Pw|]. split; [exact Nt|].
      split; intros i j; rewrite ?angle_app, ?phase_app; cbn [angle_given phase_given]; unfold set2; rewrite ?Th, ?Dl; reflexivity.
    + cbn [lv_do sets touches given]. unfold lv_prederive. destruct (lv_set o) eqn:So; cbn [lv_set lv_op lv_pow lv_nt lv_th lv_dl].
      * split; [intuition congruence|]. split; [intros [X|[_ X]]; [discriminate|apply Op; exact X]|]. split; [exact Pw|]. split; [exact Nt|].
        split; intros i j; rewrite ?angle_app, ?phase_app; cbn [angle_given phase_given]; auto.
      * split; [rewrite So; intuition congruence|]. split; [intros [X|[_ X]]; [discriminate|apply Op; exact X]|]. split; [exact Pw|]. split; [exact Nt|].
        split; intros i j; rewrite ?angle_app, ?phase_app; cbn [angle_given phase_given]; auto.
Qed.

(** Whenever the term is evaluated after any history, it is, as flavours are
    read in the interaction basis, the last operator given times the power of the
    energy given, with the other sign for antineutrinos (if the phases vanish);
    otherwise evolution is refused. *)
Theorem c79_term_partial order th dl nt cs H dt E ei rho : pairs_ok 3 order ->
  let o := lv_run order cs (lv_make th dl nt) in
  (anti_type nt rho = false \/ (forall i j, lv_dl o i j = 0)) ->
  match lv_prederive H dt o with
  | None => ~ in_force cs
  | Some o' => exists M, given cs = Some M /\
      meq 3 (seen 3 (flavours order (lv_th o) (lv_dl o) nt rho (H ei) dt) (lv_term E o' ei rho))
        (mscale ((if anti_type nt rho then -1 else 1) * powerRZ (E ei) (power_given 1 cs)) M)
  end.
Proof.
  intros O o C. destruct (c79_history order th dl nt cs) as (S1 & Op & Pw & Nt & _ & _). fold o in S1, Op, Pw, Nt.
  unfold lv_prederive. destruct (lv_set o) eqn:So.
  - destruct (Op (proj1 S1 eq_refl)) as (M & G & Em). exists M. split; [exact G|].
    unfold lv_term. cbn [lv_nt lv_pow lv_evol]. rewrite Nt, Pw.
    eapply meq_trans; [apply seen_scale|]. intros a b Ha Hb. unfold mscale. f_equal.
    rewrite <- (seen_by_flavours order (lv_th o) (lv_dl o) nt rho (H ei) dt M O C a b Ha Hb).
    apply seen_meq; try assumption; [apply meq_refl|]. intros i j Hi Hj. unfold evolve. rewrite (Em i j Hi Hj). reflexivity.
  - intro X. apply S1 in X. discriminate.
Qed.

(** With a CP phase antineutrinos feel another operator; here the given one
    with the sign of the neutrinos. *)
Theorem c79_antineutrino_refuted : let dl := set2 none 1 2 (PI / 4) in forall x H dt E ei,
  exists o', lv_prederive H dt (lv_run pairs_all [CParams c0 (rtc x); CInitial] (lv_make quarter dl Antineutrino)) = Some o' /\
  seen 3 (flavours pairs_all quarter dl Antineutrino 0 (H ei) dt) (lv_term E o' ei 0) 1%nat 2%nat = rtc (powerRZ (E ei) 1 * x).
Proof.
  intros dl x H dt E ei.
  set (o := lv_operator pairs_all (lv_matrix c0 (rtc x)) (lv_make quarter dl Antineutrino)).
  change (lv_run pairs_all [CParams c0 (rtc x); CInitial] (lv_make quarter dl Antineutrino)) with (lv_initial o).
  pose proof (lv_initial_keeps o) as K. generalize dependent (lv_initial o). intros o1 ((_ & K2 & K3 & _ & K5) & _ & S2).
  unfold lv_prederive. rewrite S2. eexists. split; [reflexivity|].
  unfold lv_term. cbn [lv_nt lv_pow lv_evol]. rewrite K2, K3, K5. unfold o. cbn [lv_operator lv_make lv_op lv_pow lv_nt lv_th lv_dl anti_type].
  rewrite (seen_scale 3 _ _ _ 1%nat 2%nat) by lia. unfold mscale. unfold flavours. rewrite (seen_turned 3 (H ei) dt _ _ 1%nat 2%nat) by lia.
  rewrite (seen_meq 3 _ (turn12 (- (PI / 4))) _ (rotate_b1 3 (turn12 (PI / 4)) (mutau x))); try lia.
  - rewrite seen_quarter. replace (2 * (PI / 4) - 2 * - (PI / 4)) with PI by field. unfold cexp. rewrite cos_PI, sin_PI. apply Ceq; cbn; ring.
  - eapply meq_trans; [apply mixing_quarter|]. unfold fixed_phases, dl. rewrite set2_same. apply rot_quarter.
  - unfold to_mass, rotate_b1. apply mmult_meq; [apply mmult_meq|apply dagger_meq];
      try (eapply meq_trans; [apply mixing_quarter|]; unfold dl; rewrite set2_same; apply rot_quarter).
    intros a b Ha Hb. unfold lv_matrix, mutau. destruct a as [|[|[|a]]]; try lia; destruct b as [|[|[|b]]]; try lia; apply Ceq; cbn; ring.
Qed.

(** In the mass basis the operator is turned though the flavours are not. *)
Theorem c79_mass_basis_refuted : forall x E ei,
  exists o', lv_prederive (fun _ => apart) 1 (lv_run pairs_all [CParams c0 (rtc x)] (lv_make none none Neutrino)) = Some o' /\
  seen 3 (mixing 3 none (fixed_phases Neutrino 0 none) pairs_all) (lv_term E o' ei 0) 1%nat 2%nat = rtc (- (powerRZ (E ei) 1 * x)).
Proof.
  intros x E ei. eexists. split; [reflexivity|].
  unfold lv_term. cbn [lv_nt lv_pow lv_evol lv_op lv_run fold_left lv_do lv_params lv_operator lv_make lv_th lv_dl anti_type].
  rewrite (seen_scale 3 _ _ _ 1%nat 2%nat) by lia. unfold mscale.
  rewrite (seen_meq 3 _ mid _ (evolve apart 1 (lv_matrix c0 (rtc x)))); try lia.
  - unfold seen, mmult, dagger. cbn [csum]. unfold mid, delta. cbn [Nat.eqb]. unfold evolve, apart. cbn [Nat.eqb andb lv_matrix re].
    unfold cexp, c0, rtc. cbn [re im]. rewrite ?Rminus_0_r, ?Rmult_1_r. rewrite cos_PI, sin_PI. apply Ceq; cbn; ring.
  - apply mixing_nothing.
  - intros a b Ha Hb. unfold evolve. rewrite (to_mass_none none (lv_matrix c0 (rtc x)) a b Ha Hb). reflexivity.
Qed.

(** *** Files *)

(** Nothing makes the object the values are attached to, so they are not
    written, and reading takes indeterminate values; in a group that has the
    object they come back. *)
Theorem c79_file_refuted : forall order emu mutau o, lv_read order (lv_write emu mutau [] []) o = None.
Proof. reflexivity. Qed.
Theorem c79_file order emu mutau f objs o : In 0%nat objs -> lv_read order (lv_write emu mutau objs f) o = Some (lv_params order emu mutau o).
Proof.
  intro I. unfold lv_write, set_attr. assert (X : existsb (Nat.eqb 0) objs = true) by (apply existsb_exists; exists 0%nat; auto).
  rewrite X. unfold lv_read. cbn [get_attr Nat.eqb andb]. destruct emu, mutau. reflexivity.
Qed.

(** *** dump_probabilities *)
Theorem c79_dump n content : dump n Both content = flat_map (fun k => [content 0%nat k; content 1%nat k]) (seq 0 n) /\
  (forall k, (k < n)%nat -> nth (2 * k) (dump n Neutrino content) 0 = content 0%nat k).
Proof.
  split; [reflexivity|]. intros k Hk. unfold dump.
  assert (G : forall m lo k, (k < m)%nat -> nth (2 * k) (flat_map (dump_flavour Neutrino content) (seq lo m)) 0 = content 0%nat (lo + k)%nat).
  { induction m as [|m IH]; intros lo k' Hk'; [lia|]. cbn [seq flat_map dump_flavour app]. destruct k' as [|k'].
    - cbn. rewrite Nat.add_0_r. reflexivity.
    - replace (2 * Datatypes.S k')%nat with (Datatypes.S (Datatypes.S (2 * k')))%nat by lia. cbn [nth]. rewrite IH by lia. f_equal. lia. }
  rewrite G by exact Hk. reflexivity.
Qed.
Theorem c79_dump_refuted : forall n content, dump n Antineutrino content = [].
Proof. intros n content. unfold dump. induction (seq 0 n); [reflexivity|exact IHl]. Qed.

Lemma prederive_th H dt o o' : lv_prederive H dt o = Some o' -> lv_th o' = lv_th o.
Proof. unfold lv_prederive. destruct (lv_set o); intro E; [injection E as <-; reflexivity|discriminate]. Qed.
(** A case: angles set, operator given, power 2, initial state, then evaluated. *)
Example c79_nonvacuous : let cs := [CMatrix mzero; CAngle 1 2 (PI / 2); CParams c0 (rtc 3); CPower 2; CInitial] in
  in_force cs /\ ~ in_force [CMatrix mzero; CAngle 1 2 (PI / 2); CInitial] /\
  exists o', lv_prederive (fun _ => apart) 3 (lv_run pairs_all cs (lv_make none none Both)) = Some o' /\
  seen 3 (flavours pairs_all (lv_th o') (lv_dl (lv_run pairs_all cs (lv_make none none Both))) Both 0 apart 3) (lv_term (fun _ => 10) o' 0 0) 1%nat 2%nat = rtc 300.
Proof.
  intro cs. assert (F : in_force cs).
  { exists [CMatrix mzero; CAngle 1 2 (PI / 2)], (CParams c0 (rtc 3)), [CPower 2; CInitial]. repeat split; repeat constructor. }
  split; [exact F|]. split.
  - rewrite (force_app [CMatrix mzero; CAngle 1 2 (PI / 2)] CInitial), (force_app [CMatrix mzero] (CAngle 1 2 (PI / 2))). cbn. intuition congruence.
  - pose proof (c79_term_partial pairs_all none none Both cs (fun _ => apart) 3 (fun _ => 10) 0 0 pairs_all_ok (or_introl eq_refl)) as T. cbv zeta in T.
    destruct (lv_prederive (fun _ => apart) 3 (lv_run pairs_all cs (lv_make none none Both))) as [o'|] eqn:P; [|contradiction].
    exists o'. split; [reflexivity|]. destruct T as (M & G & T).
    assert (Th : lv_th o' = lv_th (lv_run pairs_all cs (lv_make none none Both))).
    { exact (prederive_th _ _ _ _ P). }
    rewrite Th. etransitivity; [exact (T 1%nat 2%nat ltac:(lia) ltac:(lia))|]. injection G as <-.
    unfold mscale. cbn [anti_type Nat.eqb andb power_given cs]. change (powerRZ 10 2) with (10 ^ 2). apply Ceq; cbn [cmult cconj rtc re im pow]; ring.
Qed.

(** Antineutrinos feel the opposite of what neutrinos feel, potentials and
    new term together: of the sum only the energies remain, if counted here. *)
Theorem c78_opposite : forall nt nt' rho rho' b H0 cc nc Pt o ei i j,
  (nt = Neutrino /\ nt' = Antineutrino) \/ (nt = Both /\ rho = 0%nat /\ nt' = Both /\ rho' = 1%nat) ->
  cplus (nsi_hi nt b H0 cc nc Pt o ei rho i j) (nsi_hi nt' b H0 cc nc Pt o ei rho' i j) = match b with BMass => cplus (H0 i j) (H0 i j) | _ => c0 end.
Proof.
  intros nt nt' rho rho' b H0 cc nc Pt o ei i j HT. unfold nsi_hi, nsi_term.
  assert (A : anti_type nt rho = false /\ anti_type nt' rho' = true) by (destruct HT as [[-> ->]|(-> & -> & -> & ->)]; split; reflexivity). destruct A as [-> ->].
  unfold hi. destruct b; unfold mplus, mscale, cplus, cmult, rtc, c0; cbn [re im]; apply f_equal2; lra.
Qed.
(** A phase or an angle set is the only one changed, and nothing else is. *)
Theorem c78_parameters : forall i j x o a b,
  let p := nsi_phase i j x o in let q := nsi_angle i j x o in
  ((a = i /\ b = j -> ns_dl p a b = x /\ ns_th q a b = x) /\ (~ (a = i /\ b = j) -> ns_dl p a b = ns_dl o a b /\ ns_th q a b = ns_th o a b)) /\
  ns_th p = ns_th o /\ ns_dl q = ns_dl o /\ (forall s, s = p \/ s = q -> ns_op s = ns_op o /\ ns_evol s = ns_evol o /\ ns_eps s = ns_eps o /\ ns_len s = ns_len o /\ ns_ne s = ns_ne o).
Proof.
  intros i j x o a b. cbv zeta. split; [split|split; [reflexivity|split; [reflexivity|]]].
  - intros [-> ->]. unfold nsi_phase, nsi_angle, set2; cbn [ns_dl ns_th]. now rewrite !Nat.eqb_refl.
  - intro N. unfold nsi_phase, nsi_angle, set2; cbn [ns_dl ns_th]. destruct (Nat.eqb_spec a i); [|split; reflexivity]. destruct (Nat.eqb_spec b j); [tauto|split; reflexivity].
  - intros s [->| ->]; repeat split; reflexivity.
Qed.
Example c78_opposite_case : let o := nsi_phase 0 2 1 (nsi_make pairs_all 2 2 none none 1 (1 / 2) (PI / 2)) in ns_dl o 0%nat 2%nat = 1 /\
  forall H0 Pt i j, cplus (nsi_hi Both BInter H0 1 (-1 / 2) Pt o 0 0 i j) (nsi_hi Both BInter H0 1 (-1 / 2) Pt o 0 1 i j) = c0.
Proof.
  cbv zeta. split; [apply (c78_parameters 0 2 1 (nsi_make pairs_all 2 2 none none 1 (1 / 2) (PI / 2)) 0 2); split; reflexivity|]. intros. rewrite c78_opposite by (right; repeat split; reflexivity). reflexivity.
Qed.
Print Assumptions c78_term_partial.
Print Assumptions c78_constructed.
Print Assumptions c78_electron_partial.
Print Assumptions c78_antineutrino_refuted.
Print Assumptions c78_stale_refuted.
Print Assumptions c78_mass_basis_refuted.
Print Assumptions c78_read_refuted.
Print Assumptions c78_read_outside_refuted.
Print Assumptions c78_read_and_set.
Print Assumptions c79_history.
Print Assumptions c79_term_partial.
Print Assumptions c79_antineutrino_refuted.
Print Assumptions c79_mass_basis_refuted.
Print Assumptions c79_file_refuted.
Print Assumptions c79_file.
Print Assumptions c79_dump.
Print Assumptions c79_dump_refuted.
Print Assumptions c78_opposite.
Print Assumptions c78_parameters.
