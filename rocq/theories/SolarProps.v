(** C86: the solar contribution. *)
From Coq Require Import Reals List Arith Bool Lia Lra Psatz.
From Verif Require Import Err CMatrix FlavorModel FlavorProofs SolarModel SolarProofs.
Import ListNotations.
Local Open Scope R_scope.

(** ** tables *)
(** a usable spline whose values are not negative and which covers [a, b] *)
Definition table_ok (a b : R) (s : lin) : Prop :=
  increasing (lx s) = true /\ List.length (lx s) = List.length (ly s) /\ (2 <= List.length (lx s))%nat /\
  hd 0 (lx s) <= a /\ b <= last (lx s) 0 /\ forall y, In y (ly s) -> 0 <= y.
(** the tables cover the radii the integrals use and the spectra *)
Definition covers (s : solar) : Prop :=
  (forall f r, 0 < r < 99 / 100 -> table_ok (r * Rsun) (r * Rsun) (rspline s f)) /\
  (forall f lo hi, limits f = [lo; hi] -> exists es, espline s f = Some es /\ table_ok lo hi es).

Lemma lin_eval_in s a b t : table_ok a b s -> a <= t <= b -> exists v, lin_eval s t = Ok v /\ 0 <= v.
Proof.
  intros (I & Q & L & A & B & P) (T1 & T2). unfold lin_eval.
  destruct (Rlt_dec t (hd 0 (lx s))); [lra|]. destruct (Rlt_dec (last (lx s) 0) t); [lra|].
  eexists. split; [reflexivity|]. destruct (lin_at_between (lx s) (ly s) t I Q L) as (i & w & J & _ & W & ->); [lra|].
  pose proof (P (nth i (ly s) 0) (nth_In (ly s) 0 (Nat.lt_succ_l _ _ J))). pose proof (P (nth (S i) (ly s) 0) (nth_In _ _ J)). nra.
Qed.

(** An interpolation gives the tabulated values at the nodes and lies between the two neighbouring values elsewhere;
    outside of the table it ends the program. *)
Theorem c86_interpolation x y s t : lin_init x y = Ok s -> List.length x = List.length y ->
  (forall i, (i < List.length x)%nat -> lin_eval s (nth i x 0) = Ok (nth i y 0)) /\
  (hd 0 x <= t <= last x 0 -> exists v i, lin_eval s t = Ok v /\ nth i x 0 <= t <= nth (S i) x 0 /\
     Rmin (nth i y 0) (nth (S i) y 0) <= v <= Rmax (nth i y 0) (nth (S i) y 0)) /\
  (t < hd 0 x \/ last x 0 < t -> lin_eval s t = Throw OtherExn).
Proof.
  unfold lin_init. destruct (Nat.ltb_spec (List.length x) 2) as [L|L]; [discriminate|].
  destruct (increasing x) eqn:I; [|discriminate]. intros [= <-] Q. split; [|split].
  - intros i J. unfold lin_eval. cbn [lx ly]. pose proof (incr_below x i I J). pose proof (incr_above x i I J).
    destruct (Rlt_dec (nth i x 0) (hd 0 x)); [lra|]. destruct (Rlt_dec (last x 0) (nth i x 0)); [lra|].
    rewrite lin_at_node by assumption. reflexivity.
  - intro T. unfold lin_eval. cbn [lx ly]. destruct (Rlt_dec t (hd 0 x)); [lra|]. destruct (Rlt_dec (last x 0) t); [lra|].
    destruct (lin_at_between x y t I Q L T) as (i & w & J & N & W & ->). eexists. exists i. split; [reflexivity|]. split; [exact N|].
    unfold Rmin, Rmax. destruct (Rle_dec (nth i y 0) (nth (S i) y 0)); nra.
  - intros [T|T]; unfold lin_eval; cbn [lx ly].
    + destruct (Rlt_dec t (hd 0 x)); [reflexivity|lra].
    + destruct (Rlt_dec t (hd 0 x)); [reflexivity|]. destruct (Rlt_dec (last x 0) t); [reflexivity|lra].
Qed.

(** ** the flux *)
(** A radius outside of the unit interval is refused, whatever else is asked. *)
Theorem c86_radius s r E f : r < 0 \/ 1 < r ->
  nu_flux s r E f = Throw RuntimeError /\ e_density s r = Throw RuntimeError /\ dm_density s r = Throw RuntimeError.
Proof.
  intro H. assert (O : outside r = true).
  { unfold outside. destruct (Rlt_dec 1 r); [reflexivity|]. destruct (Rlt_dec r 0); [reflexivity|lra]. }
  unfold nu_flux, e_density, dm_density. rewrite O. repeat split; reflexivity.
Qed.

Lemma inside r : 0 <= r <= 1 -> outside r = false.
Proof. intro H. unfold outside. destruct (Rlt_dec 1 r); [lra|]. destruct (Rlt_dec r 0); [lra|reflexivity]. Qed.

(** A component with a spectrum emits only inside of its limits. The eight components never throw where the tables
    cover, and their flux is not negative. The two densities are not fluxes. *)
Theorem c86_flux s r E f : covers s -> 0 < r < 99 / 100 ->
  (In f components -> exists x, nu_flux s r E f = Ok x /\ 0 <= x) /\
  (forall lo hi, limits f = [lo; hi] -> E <= lo \/ hi <= E -> nu_flux s r E f = Ok 0) /\
  (Emin <= E <= Emax -> f = FElectron \/ f = FDM -> nu_flux s r E f = Throw RuntimeError).
Proof.
  intros (CR & CE) H. assert (O : outside r = false) by (apply inside; lra). unfold nu_flux. rewrite O. split; [|split].
  - intro F. destruct (Rlt_dec E Emin); [exists 0; split; [reflexivity|lra]|]. destruct (Rlt_dec Emax E); [exists 0; split; [reflexivity|lra]|].
    destruct (lin_eval_in _ _ _ (r * Rsun) (CR f r H) (conj (Rle_refl _) (Rle_refl _))) as (a & EA & PA).
    destruct (limits f) as [|lo [|hi [|z l]]] eqn:LF.
    + destruct f; cbn in LF; try discriminate; cbn in F; repeat (destruct F as [F|F]; [discriminate F|]); contradiction.
    + exists a. split; assumption.
    + destruct (Rlt_dec lo E); [|exists 0; split; [reflexivity|lra]]. destruct (Rlt_dec E hi); [|exists 0; split; [reflexivity|lra]].
      destruct (CE f lo hi LF) as (es & -> & T). destruct (lin_eval_in _ _ _ E T) as (b & EB & PB); [lra|].
      rewrite EA. cbn [obind]. rewrite EB. cbn [obind]. exists (a * b). split; [reflexivity|]. apply Rmult_le_pos; assumption.
    + destruct f; cbn in LF; discriminate.
  - intros lo hi LF X. destruct (Rlt_dec E Emin); [reflexivity|]. destruct (Rlt_dec Emax E); [reflexivity|]. rewrite LF.
    destruct (Rlt_dec lo E); [|reflexivity]. destruct (Rlt_dec E hi); [lra|reflexivity].
  - intros X F. destruct (Rlt_dec E Emin); [lra|]. destruct (Rlt_dec Emax E); [lra|]. destruct F as [-> | ->]; reflexivity.
Qed.

(** Inside of its limits a component gives the product of its radial and its spectral table. *)
Theorem c86_product s r E f lo hi a b es : 0 <= r <= 1 -> limits f = [lo; hi] -> lo < E < hi ->
  espline s f = Some es -> lin_eval (rspline s f) (r * Rsun) = Ok a -> lin_eval es E = Ok b -> nu_flux s r E f = Ok (a * b).
Proof.
  intros H LF X ES EA EB. unfold nu_flux. rewrite (inside r H).
  assert (Emin <= lo /\ hi <= Emax) by (unfold Emin, Emax; destruct f; cbn in LF; try discriminate; injection LF as <- <-; lra).
  destruct (Rlt_dec E Emin); [lra|]. destruct (Rlt_dec Emax E); [lra|]. rewrite LF. destruct (Rlt_dec lo E); [|lra]. destruct (Rlt_dec E hi); [|lra].
  rewrite ES, EA. cbn [obind]. rewrite EB. reflexivity.
Qed.

(** REFUTED: "a component has no flux at an energy at which it does not emit". A line gives the same flux at every energy. *)
Theorem c86_line_energy_refuted s r E f : 0 <= r <= 1 -> Emin <= E <= Emax -> f = Fpep \/ f = Fbe7 ->
  nu_flux s r E f = nu_flux s r (line_of f) f /\ nu_flux s r E f = lin_eval (rspline s f) (r * Rsun).
Proof.
  intros H X F. unfold nu_flux. rewrite (inside r H). destruct (Rlt_dec E Emin); [lra|]. destruct (Rlt_dec Emax E); [lra|].
  unfold Emin, Emax in *. destruct F as [-> | ->]; cbn [limits line_of hd].
  - unfold line_of. cbn [limits hd]. destruct (Rlt_dec 1440000 3464); [lra|]. destruct (Rlt_dec 18784000 1440000); [lra|]. split; reflexivity.
  - unfold line_of. cbn [limits hd]. destruct (Rlt_dec 861800 3464); [lra|]. destruct (Rlt_dec 18784000 861800); [lra|]. split; reflexivity.
Qed.

(** REFUTED: "every radius from 0 to 1 is usable". When the table stops inside of the Sun, as the one that is shipped does
    (its last radius is 69597878253.4), the surface ends the program; so does the centre when the table starts above 0. *)
Theorem c86_edges_refuted s :
  (last (lx (rspline s FElectron)) 0 < Rsun -> 0 <= hd 0 (lx (rspline s FElectron)) -> e_density s 1 = Throw OtherExn) /\
  (0 < hd 0 (lx (rspline s FElectron)) -> e_density s 0 = Throw OtherExn) /\ 695978782534 / 10 < Rsun.
Proof.
  unfold e_density. rewrite !inside by lra. unfold lin_eval. rewrite Rmult_1_l, Rmult_0_l. split; [|split].
  - intros H _. destruct (Rlt_dec Rsun (hd 0 (lx (rspline s FElectron)))); [reflexivity|].
    destruct (Rlt_dec (last (lx (rspline s FElectron)) 0) Rsun); [reflexivity|lra].
  - intro H. destruct (Rlt_dec 0 (hd 0 (lx (rspline s FElectron)))); [reflexivity|lra].
  - unfold Rsun. lra.
Qed.

(** ** construction *)
Lemma flux_eqb_refl f : flux_eqb f f = true. Proof. destruct f; reflexivity. Qed.
Lemma flux_eqb_true f g : flux_eqb f g = true -> f = g. Proof. destruct f, g; cbn; congruence. Qed.
Lemma each_pick A (d : A) F l r f : each F l = Ok r -> In f l -> F f = Ok (pick d r f).
Proof.
  revert r. induction l as [|k l IH]; intros r E I; [destruct I|]. cbn [each] in E. destruct (F k) as [v|?|] eqn:FK; cbn [obind] in E; try discriminate.
  destruct (each F l) as [r'|?|]; cbn [obind] in E; try discriminate. injection E as <-. unfold pick. cbn [find fst].
  destruct (flux_eqb k f) eqn:Q; [apply flux_eqb_true in Q; subst; exact FK|]. destruct I as [->|I]; [rewrite flux_eqb_refl in Q; discriminate|].
  exact (IH r' eq_refl I).
Qed.
Lemma in_all f : In f all_flux. Proof. destruct f; cbn; tauto. Qed.
Lemma make_parts junk rows spec s : make_solar junk rows spec = Ok s ->
  forall f, radial_spline junk rows f = Ok (rspline s f) /\ energy_spline spec f = Ok (espline s f).
Proof.
  unfold make_solar. destruct (each (radial_spline junk rows) all_flux) as [rs|?|] eqn:ER; cbn [obind]; try discriminate.
  destruct (each (energy_spline spec) all_flux) as [es|?|] eqn:EE; cbn [obind]; try discriminate.
  intros [= <-] f. cbn [rspline espline]. split; [apply (each_pick _ _ _ _ _ _ ER), in_all|apply (each_pick _ _ _ _ _ _ EE), in_all].
Qed.
Lemma each_ok A (F : flux -> outcome A) l : (forall f, In f l -> exists v, F f = Ok v) -> exists r, each F l = Ok r.
Proof.
  induction l as [|k l IH]; intro H; [exists []; reflexivity|]. cbn [each]. destruct (H k (or_introl eq_refl)) as (v & ->). cbn [obind].
  destruct IH as (r & ->); [intros f I; apply H; right; exact I|]. cbn [obind]. eexists. reflexivity.
Qed.
Lemma make_ok junk rows spec : (forall f, exists v, radial_spline junk rows f = Ok v) -> (forall f, exists v, energy_spline spec f = Ok v) ->
  exists s, make_solar junk rows spec = Ok s.
Proof.
  intros A B. unfold make_solar. destruct (each_ok _ (radial_spline junk rows) all_flux) as (r & ->); [intros; apply A|]. cbn [obind].
  destruct (each_ok _ (energy_spline spec) all_flux) as (e & ->); [intros; apply B|]. cbn [obind]. eexists. reflexivity.
Qed.

(** the order of the fluxes in a row, after the radius *)
Definition fluxes_in_a_row : list flux := [Fpp; Fpep; Fhep; Fbe7; Fb8; Fn13; Fo15; Ff17; FElectron; FDM].
Lemma column_entries i : forall rows c, column i rows = Ok c -> Forall2 (fun row v => nth_error row i = Some v) rows c.
Proof.
  induction rows as [|r rows IH]; intros c H; cbn [column] in H; [injection H as <-; constructor|].
  destruct (nth_error r i) as [v|] eqn:E; [|discriminate]. destruct (column i rows) as [c'|?|]; cbn [obind] in H; try discriminate.
  injection H as <-. constructor; [exact E|now apply IH].
Qed.
(** Column k+1 of the table of radii belongs to component k, and the spectra are in units of MeV. *)
Theorem c86_columns junk rows spec s f : make_solar junk rows spec = Ok s ->
  (forall k, nth_error fluxes_in_a_row k = Some f -> Forall2 (fun row v => nth_error row (S k) = Some v) rows (ly (rspline s f))) /\
  (has_file f = true -> exists es, espline s f = Some es /\ lx es = map (fun p => fst p * 1000000) (spec f) /\ ly es = map snd (spec f)) /\
  (has_file f = false -> espline s f = None).
Proof.
  intro H. destruct (make_parts _ _ _ _ H f) as (A & B). split; [|split].
  - intros k Hk. assert (E : k = index f) by (do 10 (destruct k as [|k]; [injection Hk as <-; reflexivity|]); destruct k; discriminate). subst k.
    apply column_entries. unfold radial_spline in A. destruct (radii junk rows) as [x|?|]; cbn [obind] in A; try discriminate.
    destruct (column (S (index f)) rows) as [y|?|]; cbn [obind] in A; try discriminate. unfold lin_init in A.
    destruct (Nat.ltb (List.length x) 2); [discriminate|]. destruct (increasing x); [|discriminate]. injection A as A. rewrite <- A. reflexivity.
  - intro F. unfold energy_spline in B. rewrite F in B. unfold lin_init in B. destruct (Nat.ltb _ 2); [discriminate|]. cbn [obind] in B.
    destruct (increasing _); [|discriminate]. injection B as B. rewrite <- B. eexists. split; [reflexivity|]. split; reflexivity.
  - intro F. unfold energy_spline in B. rewrite F in B. injection B as B. symmetry. exact B.
Qed.

(** The radii are those of the file except for the first, which is whatever the memory held. *)
Theorem c86_radii_partial junk rows spec s f c : make_solar junk rows spec = Ok s -> column 0 rows = Ok c ->
  lx (rspline s f) = junk :: tl c.
Proof.
  intros H HC. destruct (make_parts _ _ _ _ H f) as (A & _). unfold radial_spline in A.
  destruct rows as [|r rows]; [discriminate|]. cbn [radii] in A. cbn [column] in HC. destruct (nth_error r 0); [|discriminate].
  destruct (column 0 rows) as [c'|?|]; cbn [obind] in *; try discriminate. injection HC as <-. cbn [tl].
  destruct (column (S (index f)) (r :: rows)); cbn [obind] in A; try discriminate. unfold lin_init in A.
  destruct (Nat.ltb _ 2); [discriminate|]. destruct (increasing _); [|discriminate]. injection A as A. rewrite <- A. reflexivity.
Qed.

(** REFUTED: "the tables are those of the file": the first radius is never set (the loop starts with 1). Whatever the file
    says, a value in memory that is not below the second radius ends the program ... *)
Theorem c86_first_radius_refuted junk rows spec r0 r1 x1 rest : rows = r0 :: r1 :: rest -> nth_error r1 0 = Some x1 ->
  (forall k, (k < 11)%nat -> exists c, column k rows = Ok c) -> x1 <= junk -> make_solar junk rows spec = Throw OtherExn.
Proof.
  intros -> N C X. assert (R0 : radial_spline junk (r0 :: r1 :: rest) Fpp = Throw OtherExn).
  { unfold radial_spline. destruct (C 0%nat ltac:(lia)) as (c & HC). cbn [column] in HC. destruct (nth_error r0 0); [|discriminate].
    cbn [radii]. cbn [column]. rewrite N in *. destruct (column 0 rest) as [c'|?|]; cbn [obind] in *; try discriminate.
    destruct (C 1%nat ltac:(lia)) as (y & HY). change (S (index Fpp)) with 1%nat.
    change (match nth_error r0 1 with None => UB | Some v => obind (column 1 (r1 :: rest)) (fun c => Ok (v :: c)) end) with (column 1 (r0 :: r1 :: rest)).
    assert (Z : column 1 (r0 :: r1 :: rest) = Ok y) by exact HY. cbn [column] in Z. rewrite Z. cbn [obind]. unfold lin_init. cbn [List.length Nat.ltb Nat.leb increasing].
    destruct (Rlt_dec junk x1); [lra|reflexivity]. }
  unfold make_solar. cbn [each all_flux]. rewrite R0. reflexivity.
Qed.
(** ... and two smaller values give two different Suns from the same files. *)
Definition two_rows : list (list R) := [[0; 1; 1; 1; 1; 1; 1; 1; 1; 1; 1]; [100; 2; 2; 2; 2; 2; 2; 2; 2; 2; 2]].
Definition two_points (f : flux) : list (R * R) := match limits f with [lo; hi] => [(lo / 1000000, 1); (hi / 1000000, 1)] | _ => [] end.
Lemma two_ok junk : junk < 100 -> exists s, make_solar junk two_rows two_points = Ok s /\ rspline s FElectron = Lin [junk; 100] [1; 2].
Proof.
  intro L. assert (RS : forall f, radial_spline junk two_rows f = Ok (Lin [junk; 100] [1; 2])).
  { intro f. unfold radial_spline, two_rows. destruct f; cbn [radii column nth_error obind index]; unfold lin_init; cbn [List.length Nat.ltb Nat.leb increasing]; destruct (Rlt_dec junk 100); try lra; reflexivity. }
  destruct (make_ok junk two_rows two_points) as (s & S1).
  - intro f. eexists. apply RS.
  - intro f. unfold energy_spline. destruct (has_file f) eqn:HF; [|eexists; reflexivity].
    unfold two_points. destruct f; cbn in HF; try discriminate; cbn [limits map fst snd]; unfold lin_init; cbn [List.length Nat.ltb Nat.leb increasing];
      unfold MeV; match goal with |- context [Rlt_dec ?a ?b] => destruct (Rlt_dec a b) as [?|X]; [eexists; reflexivity|exfalso; apply X; lra] end.
  - exists s. split; [exact S1|]. destruct (make_parts _ _ _ _ S1 FElectron) as (A & _). rewrite RS in A. injection A as A. symmetry. exact A.
Qed.
Theorem c86_two_suns_refuted : exists s s' a b, make_solar 0 two_rows two_points = Ok s /\ make_solar (-100) two_rows two_points = Ok s' /\
  e_density s (/ Rsun) = Ok a /\ e_density s' (/ Rsun) = Ok b /\ a <> b.
Proof.
  destruct (two_ok 0 ltac:(lra)) as (s & S1 & S2). destruct (two_ok (-100) ltac:(lra)) as (s' & T1 & T2).
  assert (P : 1 < Rsun) by (unfold Rsun; lra). assert (Q : 0 < / Rsun) by (apply Rinv_0_lt_compat; lra).
  assert (Q1 : / Rsun <= 1) by (rewrite <- Rinv_1; left; apply Rinv_lt_contravar; lra).
  exists s, s', (chord 0 100 1 2 1), (chord (-100) 100 1 2 1). split; [exact S1|]. split; [exact T1|].
  unfold e_density. rewrite inside by lra. rewrite S2, T2. rewrite Rinv_l by lra. unfold lin_eval. cbn [lx ly hd last lin_at].
  destruct (Rlt_dec 1 0); [lra|]. destruct (Rlt_dec 100 1); [lra|]. destruct (Rlt_dec 1 (-100)); [lra|]. split; [reflexivity|]. split; [reflexivity|].
  unfold chord. lra.
Qed.

(** ** the probability *)
Section Probability.
  Variables (n : nat) (U : mat) (d : nat -> R) (hi : R) (eig : mat -> (nat -> R) * mat).

  (** what the Hamiltonian should be in the flavour basis *)
  Definition flavour_h (E ne : R) : mat := fun a b =>
    cplus (csum n (fun i => cmult (rtc (if Nat.eqb i 0 then 0 else d i / (2 * E))) (cmult (U a i) (cconj (U b i)))))
          (if Nat.eqb a 0 && Nat.eqb b 0 then rtc (hi * ne) else c0).

  Lemma dm2_at i j : dm2 n d i j = if Nat.eqb i j && Nat.ltb i n && negb (Nat.eqb i 0) then rtc (d i) else c0.
  Proof.
    unfold dm2. rewrite msum_at. unfold mscale, b0_proj, ket_proj.
    destruct (Nat.eqb_spec i j) as [->|N]; cbn [andb].
    - destruct j as [|j].
      + rewrite andb_false_r. apply csum_zero. intros k _. unfold delta. cbn [Nat.eqb]. ring.
      + cbn [Nat.eqb negb]. rewrite andb_true_r. destruct (Nat.ltb_spec (S j) n) as [L|L].
        * rewrite (csum_single (n - 1) j); [unfold delta; rewrite Nat.eqb_refl; ring|lia|].
          intros k _ K. unfold delta. rewrite (proj2 (Nat.eqb_neq (S j) (S k))) by lia. ring.
        * apply csum_zero. intros k K. unfold delta. rewrite (proj2 (Nat.eqb_neq (S j) (S k))) by lia. ring.
    - apply csum_zero. intros k _. unfold delta. destruct (Nat.eqb_spec i (S k)), (Nat.eqb_spec j (S k)); try ring. exfalso. lia.
  Qed.

  (** In the flavour basis the Hamiltonian is the vacuum one plus the potential of the electron flavour. *)
  Theorem c86_hamiltonian E ne : unitary n U -> meq n (to_b0 n U (hamiltonian n U d hi E ne)) (flavour_h E ne).
  Proof.
    intros (U1 & U2) a b A B. unfold to_b0, hamiltonian, flavour_h.
    assert (SPLIT : mmult n U (mmult n (mplus (mscale (1 / (2 * E)) (dm2 n d)) (mscale (hi * ne) (e_proj n U))) (dagger U)) a b =
      cplus (mmult n U (mmult n (mscale (1 / (2 * E)) (dm2 n d)) (dagger U)) a b) (mmult n U (mmult n (mscale (hi * ne) (e_proj n U)) (dagger U)) a b)).
    { rewrite (mmult_meq n U U _ _ (meq_refl n U) (mmult_plus_l n _ _ (dagger U)) a b A B). apply (mmult_plus_r n); assumption. }
    rewrite SPLIT. f_equal.
    - unfold mmult. apply csum_ext. intros i I. rewrite (csum_single n i); [|exact I|].
      + unfold mscale, dagger. rewrite dm2_at. rewrite Nat.eqb_refl, (proj2 (Nat.ltb_lt i n) I). cbn [andb].
        destruct (Nat.eqb i 0); cbn [negb]; apply Ceq; cbn; unfold Rdiv; ring.
      + intros k _ K. unfold mscale. rewrite dm2_at. rewrite (proj2 (Nat.eqb_neq i k)) by (intro; apply K; symmetry; assumption). cbn [andb]. ring.
    - (* U (x U† P U) U† = x P *)
      assert (X : meq n (mmult n U (mmult n (mscale (hi * ne) (e_proj n U)) (dagger U))) (mscale (hi * ne) (ket_proj 0))).
      { eapply meq_trans; [apply mmult_meq; [apply meq_refl|apply mmult_scale_l]|]. eapply meq_trans; [apply mmult_scale_r|]. apply mscale_meq.
        unfold e_proj. eapply meq_trans; [apply mmult_meq; [apply meq_refl|apply mmult_assoc]|].
        eapply meq_trans; [apply meq_sym, mmult_assoc|]. eapply meq_trans; [apply mmult_meq; [exact U1|apply mmult_assoc]|].
        eapply meq_trans; [apply mmult_id_l|]. eapply meq_trans; [apply mmult_meq; [apply meq_refl|exact U1]|]. apply mmult_id_r. }
      rewrite (X a b A B). unfold mscale, ket_proj, delta. destruct (Nat.eqb a 0); cbn [andb]; [|ring]. destruct (Nat.eqb b 0); ring.
  Qed.

  Lemma overlap_mean V lo up : unitary n V -> (0 < n)%nat -> (forall i, (i < n)%nat -> lo <= cnorm2 (U 0%nat i) <= up) -> lo <= overlap n U V <= up.
  Proof.
    intros UV N H. unfold overlap. pose proof (row_one n V 0 UV N) as R1. split.
    - rewrite <- (Rmult_1_r lo), <- R1, <- rsum_scal. apply rsum_le. intros i I. destruct (H i I). pose proof (cnorm2_pos (V 0%nat i)). nra.
    - rewrite <- (Rmult_1_r up), <- R1, <- rsum_scal. apply rsum_le. intros i I. destruct (H i I). pose proof (cnorm2_pos (V 0%nat i)). nra.
  Qed.
  Lemma U_range i : unitary n U -> (0 < n)%nat -> (i < n)%nat -> 0 <= cnorm2 (U 0%nat i) <= 1.
  Proof.
    intros UU N I. split; [apply cnorm2_pos|]. rewrite <- (row_one n U 0 UU N).
    apply (rsum_term n (fun j => cnorm2 (U 0%nat j)) i I). intros j _. apply cnorm2_pos.
  Qed.

  (** The probability is an average of the |U_ei|^2: it lies between the smallest and the largest of them, so between 0 and 1. *)
  Theorem c86_probability_range s E r ne lo up : unitary n U -> (0 < n)%nat -> E <> 0 -> e_density s r = Ok ne ->
    eigsys n (to_b0 n U (hamiltonian n U d hi E ne)) (eig (to_b0 n U (hamiltonian n U d hi E ne))) ->
    (forall i, (i < n)%nat -> lo <= cnorm2 (U 0%nat i) <= up) ->
    exists p, probability n U d hi eig (Some s) E r = Ok p /\ lo <= p <= up /\ 0 <= p <= 1.
  Proof.
    intros UU N EN HD EG B. unfold probability. rewrite HD. cbn [obind]. destruct (Req_EM_T E 0); [contradiction|].
    destruct (hermv_sort_spec n _ _ EG) as ((UV & _) & _). eexists. split; [reflexivity|]. split; [apply overlap_mean; assumption|].
    apply overlap_mean; [exact UV|exact N|]. intros i I. apply U_range; assumption.
  Qed.

  (** It does not depend on which orthonormal eigenvectors the diagonalisation returns or in which order, when the eigenvalues
      are all different. *)
  Theorem c86_probability_unique s E r ne eig' p p' : (0 < n)%nat -> e_density s r = Ok ne ->
    let H := to_b0 n U (hamiltonian n U d hi E ne) in
    eigsys n H (eig H) -> eigsys n H (eig' H) ->
    (forall i j, (i < n)%nat -> (j < n)%nat -> fst (eig H) i = fst (eig H) j -> i = j) ->
    probability n U d hi eig (Some s) E r = Ok p -> probability n U d hi eig' (Some s) E r = Ok p' -> p = p'.
  Proof.
    intros N HD H EG EG' DI. unfold probability. rewrite HD. cbn [obind]. destruct (Req_EM_T E 0); [discriminate|]. fold H.
    intros [= <-] [= <-].
    assert (DS : forall m i e, (i + m + 1 = n)%nat -> (forall a b, (a < n)%nat -> (b < n)%nat -> fst e a = fst e b -> a = b) ->
      forall a b, (a < n)%nat -> (b < n)%nat -> fst (sort_from m i e) a = fst (sort_from m i e) b -> a = b).
    { induction m as [|m IH]; intros i (l, V) Q INJ; cbn [sort_from]; [exact INJ|]. cbn [fst snd] in *. set (k := smallest l (S m) (S i) i).
      destruct (smallest_spec l (S m) (S i) i) as (K1 & _ & _). fold k in K1.
      apply IH; [lia|]. cbn [fst]. intros a b A B. rewrite !swap_sw. intro X. apply INJ in X; [|apply sw_lt; lia|apply sw_lt; lia].
      rewrite <- (sw_sw i k a), X. apply sw_sw. }
    destruct (hermv_sort_spec n H _ EG) as (E1 & A1). destruct (hermv_sort_spec n H _ EG') as (E2 & A2).
    assert (ST : strictly n (fst (hermv_sort n (eig H)))).
    { intros i j I J. destruct (A1 i j I J) as [L|L]; [exact L|]. exfalso. apply (DS (n - 1)%nat 0%nat (eig H)) in L; [lia|lia|exact DI|lia|exact J]. }
    destruct (hermv_sort n (eig H)) as (l, V). destruct (hermv_sort n (eig' H)) as (l', V'). cbn [fst snd] in *.
    unfold overlap. apply rsum_ext. intros i I. f_equal. symmetry. exact (proj1 (same_moduli n H l l' V V' E1 E2 ST A2 0 i N I)).
  Qed.

  Lemma vacuum_system E : unitary n U -> eigsys n (to_b0 n U (hamiltonian n U d hi E 0)) ((fun i => if Nat.eqb i 0 then 0 else d i / (2 * E)), U).
  Proof.
    intro UU. split; [exact UU|]. cbn [fst snd]. intros a j A J.
    transitivity (csum n (fun k => cmult (flavour_h E 0 a k) (U k j))).
    { apply csum_ext. intros k K. f_equal. exact (c86_hamiltonian E 0 UU a k A K). }
    unfold flavour_h. rewrite Rmult_0_r.
    transitivity (csum n (fun k => csum n (fun i => cmult (cmult (rtc (if Nat.eqb i 0 then 0 else d i / (2 * E))) (U a i)) (cmult (cconj (U k i)) (U k j))))).
    { apply csum_ext. intros k _. replace (if Nat.eqb a 0 && Nat.eqb k 0 then rtc 0 else c0) with c0 by (destruct (Nat.eqb a 0 && Nat.eqb k 0); reflexivity).
      replace (cplus (csum n (fun i => cmult (rtc (if Nat.eqb i 0 then 0 else d i / (2 * E))) (cmult (U a i) (cconj (U k i))))) c0) with
        (csum n (fun i => cmult (rtc (if Nat.eqb i 0 then 0 else d i / (2 * E))) (cmult (U a i) (cconj (U k i))))) by ring.
      rewrite <- csum_mult_r. apply csum_ext. intros i _. ring. }
    rewrite csum_swap. transitivity (csum n (fun i => cmult (cmult (rtc (if Nat.eqb i 0 then 0 else d i / (2 * E))) (U a i)) (mid i j))).
    { apply csum_ext. intros i I. rewrite csum_mult_l. f_equal. exact (proj2 UU i j I J). }
    rewrite (csum_single n j); [unfold mid, delta; rewrite Nat.eqb_refl; ring|exact J|].
    intros i _ X. unfold mid, delta. rewrite (proj2 (Nat.eqb_neq i j) X). ring.
  Qed.

  (** Without matter, and with the mass states numbered by growing mass, it is the vacuum average: the sum of |U_ei|^4. *)
  Theorem c86_vacuum_partial s E r : unitary n U -> (0 < n)%nat -> 0 < E -> e_density s r = Ok 0 ->
    eigsys n (to_b0 n U (hamiltonian n U d hi E 0)) (eig (to_b0 n U (hamiltonian n U d hi E 0))) ->
    (forall i, (0 < i < n)%nat -> 0 < d i) -> (forall i j, (0 < i < j)%nat -> (j < n)%nat -> d i < d j) ->
    probability n U d hi eig (Some s) E r = Ok (rsum n (fun i => cnorm2 (U 0%nat i) * cnorm2 (U 0%nat i))).
  Proof.
    intros UU N EP HD EG D0 D1. unfold probability. rewrite HD. cbn [obind]. destruct (Req_EM_T E 0); [lra|]. f_equal.
    destruct (hermv_sort_spec n _ _ EG) as (E2 & A2). set (H := to_b0 n U (hamiltonian n U d hi E 0)) in *.
    destruct (hermv_sort n (eig H)) as (l', V'). cbn [fst snd] in *.
    assert (ST : strictly n (fun i => if Nat.eqb i 0 then 0 else d i / (2 * E))).
    { assert (P : 0 < / (2 * E)) by (apply Rinv_0_lt_compat; lra). intros i j I J. rewrite (proj2 (Nat.eqb_neq j 0)) by lia.
      destruct (Nat.eqb_spec i 0) as [->|I0].
      - apply Rmult_lt_0_compat; [apply D0; lia|exact P].
      - apply Rmult_lt_compat_r; [exact P|apply D1; lia]. }
    unfold overlap. apply rsum_ext. intros i I. f_equal. exact (proj1 (same_moduli n H _ l' U V' (vacuum_system E UU) E2 ST A2 0 i N I)).
  Qed.
End Probability.

(** Sorting keeps an eigensystem one and puts the eigenvalues in order. *)
Theorem c86_sort n H e : eigsys n H e -> eigsys n H (hermv_sort n e) /\ ascending n (fst (hermv_sort n e)).
Proof. apply hermv_sort_spec. Qed.

(** REFUTED: the same without the order of the masses. The eigenvectors are sorted by eigenvalue while the columns of the mixing
    matrix are numbered 1, 2, 3; with the third mass the smallest (inverted ordering) unlike states are paired. Without any
    mixing, electron neutrinos in vacuum stay what they are, but the function gives 0. *)
Definition inverted : nat -> R := fun i => match i with 1%nat => 1 | 2%nat => -1 | _ => 0 end.
Definition flat (y : R) : solar := Solar (fun _ => Lin [0; Rsun] [y; y]) (fun f => match limits f with [lo; hi] => Some (Lin [lo; hi] [1; 1]) | _ => None end).
Definition diag_eig (E : R) : mat -> (nat -> R) * mat := fun _ => ((fun i => if Nat.eqb i 0 then 0 else inverted i / (2 * E)), mid).
Lemma flat_lin y r f : 0 <= r <= 1 -> lin_eval (rspline (flat y) f) (r * Rsun) = Ok y.
Proof.
  intro H. assert (P : 0 < Rsun) by (unfold Rsun; lra). unfold lin_eval, flat. cbn [rspline lx ly hd last lin_at].
  destruct (Rlt_dec (r * Rsun) 0); [nra|]. destruct (Rlt_dec Rsun (r * Rsun)); [nra|]. f_equal. unfold chord. ring.
Qed.
Lemma flat_density y r : 0 <= r <= 1 -> e_density (flat y) r = Ok y.
Proof. intro H. unfold e_density. rewrite (inside r H). apply flat_lin. exact H. Qed.
Theorem c86_inverted_refuted : exists U d eig s E r,
  unitary 3 U /\ 0 < E /\ e_density s r = Ok 0 /\
  eigsys 3 (to_b0 3 U (hamiltonian 3 U d 1 E 0)) (eig (to_b0 3 U (hamiltonian 3 U d 1 E 0))) /\
  rsum 3 (fun i => cnorm2 (U 0%nat i) * cnorm2 (U 0%nat i)) = 1 /\
  probability 3 U d 1 eig (Some s) E r = Ok 0.
Proof.
  exists mid, inverted, (diag_eig 1), (flat 0), 1, (1 / 2). split; [apply unitary_id|]. split; [lra|]. split; [apply flat_density; lra|].
  split; [exact (vacuum_system 3 mid inverted 1 1 (unitary_id 3))|]. split; [cbn; unfold cnorm2, mid, delta; cbn; ring|].
  unfold probability. rewrite flat_density by lra. cbn [obind]. destruct (Req_EM_T 1 0); [lra|]. f_equal.
  unfold hermv_sort, diag_eig. cbn [sort_from Nat.sub fst snd smallest].
  unfold inverted. cbn [Nat.eqb]. 
  destruct (Rlt_dec (1 / (2 * 1)) 0); [lra|]. cbn [Nat.eqb].
  destruct (Rlt_dec (-1 / (2 * 1)) 0) as [L|L]; [|exfalso; apply L; lra].
  unfold swap_at. cbn [Nat.eqb].
  match goal with |- context [Rlt_dec ?a ?b] => destruct (Rlt_dec a b) as [M|M] end; cbn; unfold cnorm2, mid, delta; cbn; ring.
Qed.

(** ** the averages *)
Section Average.
  Variables (n : nat) (U : mat) (d : nat -> R) (hi : R) (eig : mat -> (nat -> R) * mat) (quad : (R -> outcome R) -> outcome R).
  (** an integral over (0, 0.99): it keeps inequalities between integrands *)
  Definition integral (quad : (R -> outcome R) -> outcome R) : Prop := forall f g lo up,
    (forall r, 0 < r < 99 / 100 -> exists a b, f r = Ok a /\ g r = Ok b /\ lo * b <= a <= up * b) ->
    exists a b, quad f = Ok a /\ quad g = Ok b /\ lo * b <= a <= up * b.

  Lemma sums_bound s E r lo up l : covers s -> 0 < r < 99 / 100 ->
    (forall E', E' = E \/ (exists f, In f l /\ is_line f = true /\ near_line E (line_of f) = true /\ E' = line_of f) ->
      exists p, probability n U d hi eig (Some s) E' r = Ok p /\ lo <= p <= up) ->
    (forall f, In f l -> In f components) ->
    forall acc acc', lo * acc' <= acc <= up * acc' ->
    exists a b, pee_sum n U d hi eig s E r l acc = Ok a /\ flux_sum s E r l acc' = Ok b /\ lo * b <= a <= up * b.
  Proof.
    intros CV RR. induction l as [|f l IH]; intros HP HI acc acc' B; cbn [pee_sum flux_sum].
    - exists acc, acc'. split; [reflexivity|]. split; [reflexivity|exact B].
    - assert (IH' : forall acc acc', lo * acc' <= acc <= up * acc' -> exists a b, pee_sum n U d hi eig s E r l acc = Ok a /\ flux_sum s E r l acc' = Ok b /\ lo * b <= a <= up * b).
      { apply IH; [|intros g G; apply HI; right; exact G]. intros E' [->|(g & G & Q)]; apply HP; [left; reflexivity|right; exists g; split; [right; exact G|exact Q]]. }
      assert (IC : In f components) by (apply HI; left; reflexivity).
      destruct (is_line f) eqn:IL; cbn [negb].
      + destruct (near_line E (line_of f)) eqn:NL; [|apply IH'; exact B].
        destruct (HP (line_of f)) as (p & -> & PB); [right; exists f; split; [left; reflexivity|auto]|]. cbn [obind].
        destruct (c86_flux s r (line_of f) f CV RR) as (FX & _ & _). destruct (FX IC) as (x & -> & X). cbn [obind]. apply IH'. nra.
      + destruct (HP E) as (p & -> & PB); [left; reflexivity|]. cbn [obind].
        destruct (c86_flux s r E f CV RR) as (FX & _ & _). destruct (FX IC) as (x & -> & X). cbn [obind]. apply IH'. nra.
  Qed.

  (** The flux-weighted average of the probability lies between the bounds the probability has inside of the Sun at the energy asked
      for and at the lines near it, whenever there is flux at that energy. *)
  Theorem c86_average s E lo up total : integral quad -> covers s ->
    (forall r E', 0 < r < 99 / 100 -> E' = E \/ (exists f, In f components /\ is_line f = true /\ near_line E (line_of f) = true /\ E' = line_of f) ->
      exists p, probability n U d hi eig (Some s) E' r = Ok p /\ lo <= p <= up) ->
    radial_flux quad (Some s) E = Ok total -> 0 < total ->
    exists p, pee_square n U d hi eig quad (Some s) E = Ok (Num p) /\ lo <= p <= up.
  Proof.
    intros QI CV HP HT TP. unfold radial_flux in HT.
    destruct (QI (fun r => pee_sum n U d hi eig s E r components 0) (fun r => flux_sum s E r components 0) lo up) as (a & b & QA & QB & B).
    { intros r RR. apply sums_bound; [exact CV|exact RR|intros E' X; apply HP; assumption|auto|lra]. }
    unfold pee_square, radial_flux. rewrite HT. cbn [obind]. rewrite QA. cbn [obind]. destruct (Req_EM_T total 0); [lra|].
    rewrite HT in QB. injection QB as <-. eexists. split; [reflexivity|].
    assert (X : a * (1 / total) * total = a) by (field; lra). split; apply Rmult_le_reg_r with total; nra.
  Qed.

  (** REFUTED: "the average is a probability at every energy": above the end of the spectra it is not a number. *)
  Theorem c86_no_flux_refuted s E : covers s -> Emax < E ->
    (forall f, (forall r, 0 < r < 99 / 100 -> f r = Ok 0) -> quad f = Ok 0) ->
    (forall r, 0 < r < 99 / 100 -> exists p, probability n U d hi eig (Some s) E r = Ok p) ->
    pee_square n U d hi eig quad (Some s) E = Ok NotNum.
  Proof.
    intros CV HE QZ HP. assert (NF : forall f, near_line E (line_of f) = false \/ is_line f = false).
    { intro f. destruct (is_line f) eqn:IL; [left|right; reflexivity]. unfold near_line, line_of. unfold Emax in HE. destruct (Req_EM_T E 0); [reflexivity|].
      destruct f; cbn in IL; try discriminate; cbn [limits hd].
      - destruct (Rlt_dec (Rabs (E - 1440000) / E) (1 / 100)) as [X|X]; [exfalso|reflexivity]. rewrite Rabs_right in X by lra.
        apply Rmult_lt_compat_r with (r := E) in X; [|lra]. unfold Rdiv in X at 1. rewrite Rmult_assoc, Rinv_l in X by lra. lra.
      - destruct (Rlt_dec (Rabs (E - 861800) / E) (1 / 100)) as [X|X]; [exfalso|reflexivity]. rewrite Rabs_right in X by lra.
        apply Rmult_lt_compat_r with (r := E) in X; [|lra]. unfold Rdiv in X at 1. rewrite Rmult_assoc, Rinv_l in X by lra. lra. }
    assert (FZ : forall r f, 0 < r < 99 / 100 -> nu_flux s r E f = Ok 0).
    { intros r f RR. unfold nu_flux. rewrite inside by lra. destruct (Rlt_dec E Emin); [reflexivity|]. destruct (Rlt_dec Emax E); [reflexivity|lra]. }
    assert (S1 : forall r l, 0 < r < 99 / 100 -> flux_sum s E r l 0 = Ok 0).
    { intros r l RR. induction l as [|f l IH]; [reflexivity|]. cbn [flux_sum]. destruct (NF f) as [Q|Q]; rewrite Q.
      - destruct (is_line f); cbn [negb]; [exact IH|]. rewrite FZ by exact RR. cbn [obind]. rewrite Rplus_0_l. exact IH.
      - cbn [negb]. rewrite FZ by exact RR. cbn [obind]. rewrite Rplus_0_l. exact IH. }
    assert (S2 : forall r l, 0 < r < 99 / 100 -> pee_sum n U d hi eig s E r l 0 = Ok 0).
    { intros r l RR. destruct (HP r RR) as (p & P). induction l as [|f l IH]; [reflexivity|]. cbn [pee_sum]. rewrite P. cbn [obind]. destruct (NF f) as [Q|Q]; rewrite Q.
      - destruct (is_line f); cbn [negb]; [exact IH|]. rewrite FZ by exact RR. cbn [obind]. rewrite Rmult_0_r, Rplus_0_l. exact IH.
      - cbn [negb]. rewrite FZ by exact RR. cbn [obind]. rewrite Rmult_0_r, Rplus_0_l. exact IH. }
    unfold pee_square, radial_flux. rewrite (QZ (fun r => flux_sum s E r components 0)) by (intros r RR; apply S1; exact RR). cbn [obind].
    rewrite (QZ (fun r => pee_sum n U d hi eig s E r components 0)) by (intros r RR; apply S2; exact RR). cbn [obind].
    destruct (Req_EM_T 0 0); [reflexivity|lra].
  Qed.

  (** REFUTED: "without a solar model the functions say so": the averages follow the null pointer. *)
  Theorem c86_no_model_refuted E r : probability n U d hi eig None E r = Throw RuntimeError /\
    radial_flux quad None E = UB /\ pee_square n U d hi eig quad None E = UB.
  Proof. split; [reflexivity|]. split; reflexivity. Qed.
End Average.

(** REFUTED: "at an energy far from the lines they do not count": the test divides by the energy without its absolute value,
    so all lines are taken at every negative energy. *)
Theorem c86_negative_energy_refuted s E r x y : covers s -> 0 < r < 99 / 100 -> E < 0 ->
  lin_eval (rspline s Fpep) (r * Rsun) = Ok x -> lin_eval (rspline s Fbe7) (r * Rsun) = Ok y ->
  flux_sum s E r components 0 = Ok (x + y).
Proof.
  intros CV RR EN X Y.
  assert (NL : forall El, 0 < El -> near_line E El = true).
  { intros El P. unfold near_line. destruct (Req_EM_T E 0); [lra|]. destruct (Rlt_dec (Rabs (E - El) / E) (1 / 100)) as [Q|Q]; [reflexivity|].
    exfalso. apply Q. apply Rlt_le_trans with 0; [|lra]. rewrite Rabs_left by lra. assert (/ E < 0) by (apply Rinv_lt_0_compat; exact EN). unfold Rdiv. nra. }
  assert (FZ : forall f, nu_flux s r E f = Ok 0).
  { intro f. unfold nu_flux. rewrite inside by lra. destruct (Rlt_dec E Emin) as [Q|Q]; [reflexivity|]. exfalso. apply Q. unfold Emin. lra. }
  assert (L1 : nu_flux s r (line_of Fpep) Fpep = Ok x).
  { rewrite <- X. apply c86_line_energy_refuted; [lra|unfold line_of, Emin, Emax; cbn; lra|left; reflexivity]. }
  assert (L2 : nu_flux s r (line_of Fbe7) Fbe7 = Ok y).
  { rewrite <- Y. apply c86_line_energy_refuted; [lra|unfold line_of, Emin, Emax; cbn; lra|right; reflexivity]. }
  unfold components. cbn [firstn all_flux flux_sum is_line isline_map find fst snd flux_eqb negb].
  rewrite !FZ. cbn [obind]. rewrite (NL (line_of Fpep)) by (unfold line_of; cbn; lra). rewrite L1. cbn [obind]. rewrite (NL (line_of Fbe7)) by (unfold line_of; cbn; lra).
  rewrite L2. cbn [obind]. f_equal. ring.
Qed.

(** Which components count as lines; boron is not in the list and so is none. *)
Theorem c86_lines f : In f components -> (is_line f = true <-> exists El, limits f = [El]) /\ (is_line f = false -> has_file f = true).
Proof.
  intro H. cbn in H. repeat (destruct H as [<- | H]); try contradiction; (split; [split; [|]|]); cbn; try discriminate; try reflexivity;
    try (intros _; eexists; reflexivity); intros (El & Q); discriminate.
Qed.

(** ** concrete cases *)
Example flat_covers y : 0 <= y -> covers (flat y).
Proof.
  intro Y. assert (P : 0 < Rsun) by (unfold Rsun; lra). split.
  - intros f r RR. unfold table_ok, flat. cbn [rspline lx ly increasing hd last List.length]. destruct (Rlt_dec 0 Rsun); [|lra].
    split; [reflexivity|]. split; [reflexivity|]. split; [lia|]. split; [nra|]. split; [nra|]. intros z [<-|[<-|[]]]; exact Y.
  - intros f lo hi L. unfold flat. cbn [espline]. rewrite L. eexists. split; [reflexivity|]. unfold table_ok. cbn [lx ly increasing hd last List.length].
    destruct (Rlt_dec lo hi) as [Q|Q].
    + split; [reflexivity|]. split; [reflexivity|]. split; [lia|]. split; [lra|]. split; [lra|]. intros z [<-|[<-|[]]]; lra.
    + exfalso. apply Q. destruct f; cbn in L; try discriminate; injection L as <- <-; lra.
Qed.
(** an integral: the value in the middle *)
Definition midpoint (f : R -> outcome R) : outcome R := f (1 / 2).
Example midpoint_integral : integral midpoint.
Proof. intros f g lo up H. apply (H (1 / 2)). lra. Qed.
(** no mixing, normal ordering, a vacuum Sun: the average at 10 MeV is 1 *)
Definition normal : nat -> R := fun i => match i with 1%nat => 1 | 2%nat => 2 | _ => 0 end.
Definition vac_eig (E : R) : mat -> (nat -> R) * mat := fun _ => ((fun i => if Nat.eqb i 0 then 0 else normal i / (2 * E)), mid).
Definition dark : solar := Solar (fun f => match f with FElectron => Lin [0; Rsun] [0; 0] | _ => Lin [0; Rsun] [3; 3] end) (espline (flat 3)).
Example dark_covers : covers dark.
Proof.
  destruct (flat_covers 3 ltac:(lra)) as (A & B). destruct (flat_covers 0 ltac:(lra)) as (D & _). split; [|exact B].
  intros f r RR. unfold dark. cbn [rspline]. destruct f; [exact (A Fpp r RR)|exact (A Fpp r RR)|exact (A Fpp r RR)|exact (A Fpp r RR)|exact (A Fpp r RR)|exact (A Fpp r RR)|exact (A Fpp r RR)|exact (A Fpp r RR)|exact (D Fpp r RR)|exact (A Fpp r RR)].
Qed.
Example ex_vacuum E r : 0 < E -> 0 <= r <= 1 -> probability 3 mid normal 1 (vac_eig E) (Some dark) E r = Ok 1.
Proof.
  intros H Hr. rewrite (c86_vacuum_partial 3 mid normal 1 (vac_eig E) dark E r); [|apply unitary_id|lia|exact H| | | |].
  - f_equal. cbn. unfold cnorm2, mid, delta. cbn. ring.
  - unfold e_density. rewrite (inside r Hr). exact (flat_lin 0 r Fpp Hr).
  - exact (vacuum_system 3 mid normal 1 E (unitary_id 3)).
  - intros i I. destruct i as [|[|[|i]]]; cbn; try lia; lra.
  - intros i j I J. destruct i as [|[|[|i]]]; destruct j as [|[|[|j]]]; cbn; try lia; lra.
Qed.
Example ex_average : exists p, pee_square 3 mid normal 1 (vac_eig 10000000) midpoint (Some dark) 10000000 = Ok (Num p) /\ 1 <= p <= 1.
Proof.
  assert (FS : exists t, flux_sum dark 10000000 (1 / 2) components 0 = Ok t /\ 0 < t).
  { assert (Z : forall f lo hi, limits f = [lo; hi] -> hi <= 10000000 -> nu_flux dark (1 / 2) 10000000 f = Ok 0).
    { intros f lo hi L X. apply (c86_flux dark (1 / 2) 10000000 f dark_covers ltac:(lra)) with lo hi; [exact L|lra]. }
    assert (L3 : lin_eval (Lin [0; Rsun] [3; 3]) (1 / 2 * Rsun) = Ok 3) by (apply (flat_lin 3 (1 / 2) Fpp); lra).
    assert (Q : forall f lo hi, limits f = [lo; hi] -> lo < 10000000 < hi -> rspline dark f = Lin [0; Rsun] [3; 3] -> nu_flux dark (1 / 2) 10000000 f = Ok 3).
    { intros f lo hi L X RD. replace 3 with (3 * 1) by ring. apply (c86_product dark (1 / 2) 10000000 f lo hi 3 1 (Lin [lo; hi] [1; 1])); [lra|exact L|exact X| |rewrite RD; exact L3|].
      - unfold dark, flat. cbn [espline]. rewrite L. reflexivity.
      - unfold lin_eval. cbn [lx ly hd last lin_at]. destruct (Rlt_dec 10000000 lo); [lra|]. destruct (Rlt_dec hi 10000000); [lra|]. f_equal. unfold chord. ring. }
    unfold components. cbn [firstn all_flux flux_sum is_line isline_map find fst snd flux_eqb negb].
    rewrite (Z Fpp 5040 423410 eq_refl) by lra. cbn [obind].
    assert (NL : forall El, 0 < El < 2000000 -> near_line 10000000 El = false).
    { intros El P. unfold near_line. destruct (Req_EM_T 10000000 0); [lra|]. destruct (Rlt_dec _ _) as [X|X]; [exfalso|reflexivity].
      rewrite Rabs_right in X by lra. lra. }
    rewrite (NL (line_of Fpep)) by (unfold line_of; cbn; lra). rewrite (Q Fhep 18784 18784000 eq_refl ltac:(lra) eq_refl). cbn [obind].
    rewrite (NL (line_of Fbe7)) by (unfold line_of; cbn; lra). rewrite (Q Fb8 20000 16560000 eq_refl ltac:(lra) eq_refl). cbn [obind].
    rewrite (Z Fn13 5995 1199000 eq_refl) by lra. rewrite (Z Fo15 3464 1732000 eq_refl) by lra. rewrite (Z Ff17 3480 1740000 eq_refl) by lra. cbn [obind].
    eexists. split; [reflexivity|]. lra. }
  destruct FS as (t & FS & TP).
  apply (c86_average 3 mid normal 1 (vac_eig 10000000) midpoint dark 10000000 1 1 t midpoint_integral dark_covers); [|exact FS|exact TP].
  intros r E' RR [->|(f & I & L & N & ->)].
  - exists 1. split; [apply ex_vacuum; lra|lra].
  - exfalso. revert N. unfold near_line. destruct (Req_EM_T 10000000 0); [lra|].
    destruct f; cbn in L; try discriminate; unfold line_of; cbn [limits hd]; (destruct (Rlt_dec _ _) as [X|X]; [rewrite Rabs_right in X by lra; lra|discriminate]).
Qed.

Print Assumptions c86_interpolation.
Print Assumptions c86_radius.
Print Assumptions c86_flux.
Print Assumptions c86_product.
Print Assumptions c86_line_energy_refuted.
Print Assumptions c86_edges_refuted.
Print Assumptions c86_columns.
Print Assumptions c86_radii_partial.
Print Assumptions c86_first_radius_refuted.
Print Assumptions c86_two_suns_refuted.
Print Assumptions c86_hamiltonian.
Print Assumptions c86_probability_range.
Print Assumptions c86_probability_unique.
Print Assumptions c86_vacuum_partial.
Print Assumptions c86_sort.
Print Assumptions c86_inverted_refuted.
Print Assumptions c86_average.
Print Assumptions c86_no_flux_refuted.
Print Assumptions c86_no_model_refuted.
Print Assumptions c86_negative_energy_refuted.
Print Assumptions c86_lines.
