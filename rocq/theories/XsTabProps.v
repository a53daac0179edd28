(** C75: the tables of interactions hold the averages of the cross sections
    of the library. *)
From Coq Require Import Reals ZArith List Arith Bool Lia Lra Classical_Prop.
From Verif Require Import Err XsTabModel XsTabProofs.
Import ListNotations.
Open Scope R_scope.

(** ** What the tables are meant to hold *)

(** the neutrino flavour of a row, the particle of a density matrix *)
Definition flavour_of (f : nat) (fl : flavour) : Prop := nth_error [Electron; Muon; Tau; Sterile] f = Some fl.
Definition particle (nt : nutype) (r : nat) (a : bool) : Prop :=
  match nt with Neutrino => r = 0%nat /\ a = false | Antineutrino => r = 0%nat /\ a = true
  | Both => (r = 0%nat /\ a = false) \/ (r = 1%nat /\ a = true) end.

(** the value belonging to a node: over the bin that ends there; at the first node, there *)
Definition node_total (E : nat -> R) (x : xs) fl a i (e : nat) (v : xval) : Prop :=
  (e = 0%nat -> x_total x (E 0%nat) fl a i = Ok v) /\
  (forall b, e = S b -> x_avtotal x (E b) (E e) fl a i = Ok v).
Definition node_diff (E : nat -> R) (x : xs) fl a i (e e' : nat) (v : xval) : Prop :=
  (e' = 0%nat -> x_diff x (E e) (E 0%nat) fl a i = Ok v) /\
  (forall b, e' = S b -> x_avdiff x (E e) (E b) (E e') fl a i = Ok v).

Section Props.
Variable lib : Z -> option xs.
Variable tau_all tau_lep : nat -> nat -> nat -> xval.
Variables cm2 cm2GeV GeVm1 : R.
Variable nt : nutype.
Variables numneu ne : nat.
Variable E : nat -> R.
Variable glashow : bool.
Variable odd : nat -> flavour.
Notation mk := (make lib tau_all tau_lep cm2 cm2GeV GeVm1 nt numneu ne E glashow odd).
Notation hld := (holds lib tau_all tau_lep cm2 cm2GeV GeVm1 nt E odd).

Lemma made s l s' : mk s = Ok (l, s') ->
  choose_targets lib = Ok l /\ writes lib tau_all tau_lep cm2 cm2GeV GeVm1 nt E odd l (all_keys nt numneu ne glashow l) s s'.
Proof.
  unfold make. destruct (choose_targets lib) as [c| |]; try discriminate. cbn [obind]. intro H.
  pose proof (tables_sat lib tau_all tau_lep cm2 cm2GeV GeVm1 nt numneu ne E glashow odd c classic s) as T.
  destruct (get_cross_sections _ _ _ _ _ _ _ _ _ _ _ _ _ s) as [s1| |]; try discriminate. injection H as <- <-. auto.
Qed.

Lemma total_spec x fl a i e v : total_at E x fl a i e = Ok v <-> node_total E x fl a i e v.
Proof.
  unfold total_at, node_total. destruct e as [|e]; cbn [Nat.eqb].
  - split; [intro H; split; [auto|discriminate]|intros [H _]; auto].
  - replace (S e - 1)%nat with e by lia. split; [intro H; split; [discriminate|intros b [= <-]; exact H]|intros [_ H]; auto].
Qed.
Lemma diff_spec x fl a i e e' v : diff_at E x fl a i e e' = Ok v <-> node_diff E x fl a i e e' v.
Proof.
  unfold diff_at, node_diff. destruct e' as [|e']; cbn [Nat.eqb].
  - split; [intro H; split; [auto|discriminate]|intros [H _]; auto].
  - replace (S e' - 1)%nat with e' by lia. split; [intro H; split; [discriminate|intros b [= <-]; exact H]|intros [_ H]; auto].
Qed.
Lemma cast_spec f fl : flavour_of f fl -> cast odd f = fl.
Proof. unfold flavour_of. destruct f as [|[|[|[|f]]]]; cbn; try (intros [= <-]; reflexivity). destruct f; discriminate. Qed.
Lemma anti_spec r a : particle nt r a -> anti nt r = a /\ (r < nrhos nt)%nat.
Proof. unfold particle, anti, nrhos. destruct nt; [intros [-> ->]; auto|intros [-> ->]; auto|intros [[-> ->]|[-> ->]]; auto]. Qed.

(** ** Targets *)

(** Proton and neutron if the library has both, else the isoscalar nucleon; otherwise the call throws. *)
Theorem c75_targets s :
  (lib proton <> None /\ lib neutron <> None -> forall l s', mk s = Ok (l, s') -> l = [proton; neutron]) /\
  (lib proton = None \/ lib neutron = None -> forall l s', mk s = Ok (l, s') -> l = [isoscalar_nucleon] /\ lib isoscalar_nucleon <> None) /\
  (lib proton = None \/ lib neutron = None -> lib isoscalar_nucleon = None -> mk s = Throw RuntimeError).
Proof.
  split; [|split].
  - intros [A B] l s' H. apply made in H as [H _]. unfold choose_targets, has in H.
    destruct (lib proton); [|contradiction]. destruct (lib neutron); [|contradiction]. cbn in H. congruence.
  - intros A l s' H. apply made in H as [H _]. unfold choose_targets, has in H.
    destruct A as [A|A]; rewrite A in H; [cbn [andb] in H|rewrite andb_false_r in H];
      destruct (lib isoscalar_nucleon); try discriminate; (split; [congruence|discriminate]).
  - intros A B. unfold make, choose_targets, has. rewrite B. destruct A as [A|A]; rewrite A; [|rewrite andb_false_r]; reflexivity.
Qed.

(** ** Total cross sections *)

(** Every total is the library's for that target, flavour and particle: the
    average over the bin ending at the node.  For the three active flavours it
    is a number and not negative. *)
Theorem c75_totals s l s' t c r a f fl e :
  mk s = Ok (l, s') -> nth_error l t = Some c -> particle nt r a -> (f < numneu)%nat -> flavour_of f fl -> (e < ne)%nat ->
  exists x vc vn, lib c = Some x /\ node_total E x fl a CC e vc /\ node_total E x fl a NC e vn /\
    s' (SCC t r f e) = Some (xmul vc cm2) /\ s' (SNC t r f e) = Some (xmul vn cm2) /\
    ((f < 3)%nat -> exists qc qn, xmul vc cm2 = Num qc /\ xmul vn cm2 = Num qn /\ 0 <= qc /\ 0 <= qn).
Proof.
  intros H Hc Hp Hf Hfl He. apply made in H as [_ [W _]]. apply anti_spec in Hp as [Ha Hr]. apply cast_spec in Hfl.
  assert (In1 : forall k, cell_keys t r f e k -> all_keys nt numneu ne glashow l k).
  { intros k K. left. exists t. split; [split; [lia|apply nth_error_Some; congruence]|]. exists r, f, e.
    split; [repeat split; assumption|left; exact K]. }
  destruct (W (SCC t r f e)) as (vc & A1 & A2 & A3). { apply In1. left; reflexivity. }
  destruct (W (SNC t r f e)) as (vn & B1 & B2 & B3). { apply In1. right; left; reflexivity. }
  destruct A2 as (c1 & x & Z1 & Z2 & wc & A2 & ->). destruct B2 as (c2 & x2 & Z3 & Z4 & wn & B2 & ->).
  rewrite Hc in Z1, Z3. injection Z1 as <-. injection Z3 as <-. rewrite Z2 in Z4. injection Z4 as <-.
  rewrite Ha, Hfl in A2, B2. rewrite total_spec in A2, B2. exists x, wc, wn.
  split; [exact Z2|]. split; [exact A2|]. split; [exact B2|]. split; [exact A1|]. split; [exact B1|].
  intro L. specialize (A3 L). specialize (B3 L).
  destruct (xmul wc cm2) as [qc| | |]; try discriminate. destruct (xmul wn cm2) as [qn| | |]; try discriminate.
  cbn in A3, B3. destruct (Rlt_dec qc 0); [discriminate|]. destruct (Rlt_dec qn 0); [discriminate|].
  exists qc, qn. repeat split; lra.
Qed.

(** ** Spectra *)

(** what a spectrum entry is, from differential [n] and total [d] *)
Definition spectrum (n d v : xval) : Prop :=
  (n = Num 0 -> v = Num 0) /\
  (forall a b, n = Num a -> d = Num b -> a <> 0 -> b <> 0 -> v = Num (a / b)).

(** Every spectrum entry below the diagonal is the library's differential
    cross section, averaged over the bin ending at the outgoing node, divided
    by the total of the incoming node.  For the active flavours it is a number
    and not negative. *)
Theorem c75_spectra s l s' t c r a f fl e e' :
  mk s = Ok (l, s') -> nth_error l t = Some c -> particle nt r a -> (f < numneu)%nat -> flavour_of f fl -> (e < ne)%nat -> (e' < e)%nat ->
  exists x, lib c = Some x /\
  forall i, (i = CC \/ i = NC) -> exists n d v,
    node_diff E x fl a i e e' n /\ node_total E x fl a i e d /\
    s' (match i with CC => DCC | _ => DNC end t r f e e') = Some v /\
    spectrum (xmul n cm2GeV) (xmul d cm2) v /\
    ((f < 3)%nat -> exists q, v = Num q /\ 0 <= q).
Proof.
  intros H Hc Hp Hf Hfl He Le. apply made in H as [_ [W _]]. apply anti_spec in Hp as [Ha Hr]. apply cast_spec in Hfl.
  assert (In1 : forall k, ratio_keys t r f e k -> all_keys nt numneu ne glashow l k).
  { intros k K. left. exists t. split; [split; [lia|apply nth_error_Some; congruence]|]. exists r, f, e.
    split; [repeat split; assumption|right; exact K]. }
  assert (Q : forall n d v, quotient n d v -> spectrum n d v).
  { intros n d v ->. split.
    - intros ->. cbn. destruct (Req_EM_T 0 0); [reflexivity|lra].
    - intros x y -> -> Nx Ny. cbn. destruct (Req_EM_T x 0); [contradiction|]. destruct (Req_EM_T y 0); [contradiction|reflexivity]. }
  assert (P : forall v, sane v = true -> exists q, v = Num q /\ 0 <= q).
  { intros [q| | |] Sv; try discriminate Sv. cbn in Sv. destruct (Rlt_dec q 0); [discriminate|]. exists q. split; [reflexivity|lra]. }
  destruct (W (DCC t r f e e')) as (vc & A1 & A2 & A3). { apply In1. exists e'. auto. }
  destruct (W (DNC t r f e e')) as (vn & B1 & B2 & B3). { apply In1. exists e'. auto. }
  destruct A2 as (c1 & x & Z1 & Z2 & n & d & (n0 & N1 & ->) & (d0 & D1 & ->) & A2).
  destruct B2 as (c2 & x2 & Z3 & Z4 & n' & d' & (n0' & N1' & ->) & (d0' & D1' & ->) & B2).
  rewrite Hc in Z1, Z3. injection Z1 as <-. injection Z3 as <-. rewrite Z2 in Z4. injection Z4 as <-.
  rewrite Ha, Hfl in N1, D1, N1', D1'. rewrite total_spec in D1, D1'. rewrite diff_spec in N1, N1'.
  exists x. split; [exact Z2|]. intros i [->| ->].
  - exists n0, d0, vc. split; [exact N1|]. split; [exact D1|]. split; [exact A1|]. split; [apply Q; exact A2|]. intro L. apply P, A3, L.
  - exists n0', d0', vn. split; [exact N1'|]. split; [exact D1'|]. split; [exact B1|]. split; [apply Q; exact B2|]. intro L. apply P, B3, L.
Qed.

(** Entries on and above the diagonal, and rows of no target, flavour or node,
    are left as they were. *)
Theorem c75_frame s l s' : mk s = Ok (l, s') ->
  (forall t r f e e', ((length l <= t)%nat \/ (nrhos nt <= r)%nat \/ (numneu <= f)%nat \/ (ne <= e)%nat \/ (e <= e')%nat) ->
     s' (DCC t r f e e') = s (DCC t r f e e') /\ s' (DNC t r f e e') = s (DNC t r f e e')) /\
  (forall t r f e, ((length l <= t)%nat \/ (nrhos nt <= r)%nat \/ (numneu <= f)%nat \/ (ne <= e)%nat) ->
     s' (SCC t r f e) = s (SCC t r f e) /\ s' (SNC t r f e) = s (SNC t r f e)) /\
  (forall r e e', ((nrhos nt <= r)%nat \/ (ne <= e)%nat \/ (e <= e')%nat) ->
     s' (TALL r e e') = s (TALL r e e') /\ s' (TLEP r e e') = s (TLEP r e e')) /\
  (forall e e', ((ne <= e)%nat \/ (e <= e')%nat) -> s' (DGR e e') = s (DGR e e')) /\
  (glashow = false \/ nt = Neutrino -> forall e e', s' (SGR e) = s (SGR e) /\ s' (DGR e e') = s (DGR e e')).
Proof.
  intro H. apply made in H as [_ [_ W]].
  assert (Off : glashow = false \/ nt = Neutrino -> has_glashow nt glashow = false).
  { unfold has_glashow. intros [-> | ->]; [reflexivity|apply andb_false_r]. }
  repeat split; intros; apply W;
    (intros [(t' & Lt & r' & f' & e1 & (G1 & G2 & G3) & [[K|[K|(e2 & _ & [K|K])]]|(e2 & L2 & [K|K])])|
      [(Hg & e1 & L1 & [K|[(e2 & _ & K)|(e2 & L2 & K)]])|(r' & e1 & e2 & Lr & L1 & L2 & [K|K])]]);
    try discriminate K; try (injection K; intros; subst; lia); try (rewrite Off in Hg by assumption; discriminate).
Qed.

(** ** Decays of the tau *)

(** The decay spectra are the library's, for the particle of the matrix. *)
Theorem c75_tau s l s' r a e e' :
  mk s = Ok (l, s') -> particle nt r a -> (e < ne)%nat -> (e' < e)%nat ->
  s' (TALL r e e') = Some (xmul (tau_all e e' (if a then 1 else 0)%nat) GeVm1) /\
  s' (TLEP r e e') = Some (xmul (tau_lep e e' (if a then 1 else 0)%nat) GeVm1).
Proof.
  intros H Hp He Le. apply made in H as [_ [W _]]. apply anti_spec in Hp as [Ha Hr].
  destruct (W (TALL r e e')) as (v & A & -> & _). { right; right. exists r, e, e'. auto. }
  destruct (W (TLEP r e e')) as (v' & A' & -> & _). { right; right. exists r, e, e'. auto. }
  rewrite Ha in A, A'. auto.
Qed.

(** ** Glashow resonance *)

(** With the resonance on and antineutrinos present: electron antineutrinos on
    electrons, where the total is a number other than zero. *)
Theorem c75_glashow_partial s l s' e : mk s = Ok (l, s') -> glashow = true -> nt <> Neutrino -> (e < ne)%nat ->
  exists x d, lib electron = Some x /\ node_total E x Electron true GR e d /\ s' (SGR e) = Some (xmul d cm2) /\
    forall e', (e' < e)%nat -> exists n, node_diff E x Electron true GR e e' n /\
      forall a b, xmul n cm2GeV = Num a -> xmul d cm2 = Num b -> b <> 0 -> s' (DGR e e') = Some (Num (a / b)).
Proof.
  intros H Hg Hn He. apply made in H as [_ [W _]].
  assert (On : has_glashow nt glashow = true) by (unfold has_glashow; rewrite Hg; destruct nt; auto).
  destruct (W (SGR e)) as (v & A & (x & Hx & d & D & ->) & _). { right; left. split; [exact On|]. exists e. auto. }
  rewrite total_spec in D. exists x, d. split; [exact Hx|]. split; [exact D|]. split; [exact A|].
  intros e' Le. destruct (W (DGR e e')) as (v' & A' & (x' & Hx' & n & d' & (n0 & N & ->) & (d0 & D0 & ->) & ->) & _).
  { right; left. split; [exact On|]. exists e. split; [exact He|]. right; right. exists e'. auto. }
  rewrite Hx in Hx'. injection Hx' as <-. rewrite total_spec in D0. rewrite diff_spec in N. exists n0. split; [exact N|].
  assert (d0 = d) by (rewrite <- total_spec in D, D0; congruence). subst d0.
  intros a b Ea Eb Nb. rewrite A', Ea, Eb. cbn. destruct (Req_EM_T b 0); [contradiction|reflexivity].
Qed.

(** Without a cross section for electrons the call throws, if it gets that far. *)
Theorem c75_no_electrons s l s' : glashow = true -> nt <> Neutrino -> lib electron = None -> mk s <> Ok (l, s').
Proof.
  intros Hg Hn Hl H. pose proof H as H0. unfold make in H. destruct (choose_targets lib) as [c| |]; try discriminate. cbn [obind] in H.
  unfold get_cross_sections in H. destruct (all_targets _ _ _ _ _ _ _ _ _ _ s) as [s1| |]; try discriminate.
  cbn [obind] in H. unfold resonance, has_glashow in H. rewrite Hg, Hl in H. destruct nt; [contradiction|discriminate|discriminate].
Qed.

(** ** No undefined behaviour, and success *)

(** If the library's functions are defined then so is the call. *)
Theorem c75_defined s :
  (forall c x, lib c = Some x ->
    (forall e f a i, x_total x e f a i <> UB) /\ (forall e e' f a i, x_diff x e e' f a i <> UB) /\
    (forall e e' f a i, x_avtotal x e e' f a i <> UB) /\ (forall e e' e'' f a i, x_avdiff x e e' e'' f a i <> UB)) ->
  mk s <> UB.
Proof.
  intros D. unfold make. destruct (choose_targets lib) as [c| |] eqn:Hc; cbn [obind]; try discriminate.
  2:{ unfold choose_targets in Hc. destruct (_ && _); [discriminate|]. destruct (has _ _); discriminate. }
  pose proof (tables_sat lib tau_all tau_lep cm2 cm2GeV GeVm1 nt numneu ne E glashow odd c classic s) as T.
  destruct (get_cross_sections _ _ _ _ _ _ _ _ _ _ _ _ _ s) as [s1| |]; try discriminate. exfalso. apply T. constructor; [|exact D].
  unfold choose_targets, has in Hc. intros z Hz.
  destruct (lib proton) as [x1|] eqn:E1; [destruct (lib neutron) as [x2|] eqn:E2|]; cbn [andb] in Hc.
  - injection Hc as <-. destruct Hz as [<-|[<-|[]]]; eauto.
  - destruct (lib isoscalar_nucleon) as [x3|] eqn:E3; [|discriminate]. injection Hc as <-. destruct Hz as [<-|[]]; eauto.
  - destruct (lib isoscalar_nucleon) as [x3|] eqn:E3; [|discriminate]. injection Hc as <-. destruct Hz as [<-|[]]; eauto.
Qed.

(** a library whose values for the active flavours are numbers, not negative,
    and whose differential cross sections vanish where the total does *)
Definition number (v : xval) : Prop := exists q, v = Num q /\ 0 <= q.
Definition sound (x : xs) : Prop :=
  (forall e f a i, exists v, x_total x e f a i = Ok v) /\ (forall e e' f a i, exists v, x_diff x e e' f a i = Ok v) /\
  (forall e e' f a i, exists v, x_avtotal x e e' f a i = Ok v) /\ (forall e e' e'' f a i, exists v, x_avdiff x e e' e'' f a i = Ok v) /\
  (forall fl a i e v, fl <> Sterile -> node_total E x fl a i e v -> number v) /\
  (forall fl a i e e' v, fl <> Sterile -> node_diff E x fl a i e e' v -> number v) /\
  (forall fl a i e e' v, fl <> Sterile -> node_total E x fl a i e (Num 0) -> node_diff E x fl a i e e' v -> v = Num 0).

(** With such a library, targets, and electrons where they are needed, the tables are made. *)
Theorem c75_succeeds s : 0 < cm2 -> 0 < cm2GeV ->
  (lib proton <> None /\ lib neutron <> None \/ lib isoscalar_nucleon <> None) ->
  (glashow = true -> nt <> Neutrino -> lib electron <> None) ->
  (forall c x, lib c = Some x -> sound x) ->
  exists l s', mk s = Ok (l, s').
Proof.
  intros Pc Pg Ht Hg D. unfold make. destruct (choose_targets lib) as [c| |] eqn:Hc; cbn [obind].
  2,3: unfold choose_targets, has in Hc; destruct (lib proton), (lib neutron), (lib isoscalar_nucleon); cbn in Hc; try discriminate;
    exfalso; destruct Ht as [[? ?]|?]; contradiction.
  assert (Hl : forall z, In z c -> exists x, lib z = Some x).
  { unfold choose_targets, has in Hc. intros z Hz.
    destruct (lib proton) as [x1|] eqn:E1; [destruct (lib neutron) as [x2|] eqn:E2|]; cbn [andb] in Hc.
    - injection Hc as <-. destruct Hz as [<-|[<-|[]]]; eauto.
    - destruct (lib isoscalar_nucleon) as [x3|] eqn:E3; [|discriminate]. injection Hc as <-. destruct Hz as [<-|[]]; eauto.
    - destruct (lib isoscalar_nucleon) as [x3|] eqn:E3; [|discriminate]. injection Hc as <-. destruct Hz as [<-|[]]; eauto. }
  pose proof (tables_sat lib tau_all tau_lep cm2 cm2GeV GeVm1 nt numneu ne E glashow odd c classic s) as T.
  destruct (get_cross_sections _ _ _ _ _ _ _ _ _ _ _ _ _ s) as [s1|er|]; cbn [obind]; [eauto| |]; exfalso; apply T.
  - assert (Tot : forall z x, lib z = Some x -> forall f a i e v, cast odd f <> Sterile -> times (total_at E x (cast odd f) a i e) cm2 v ->
      exists q, v = Num q /\ 0 <= q).
    { intros z x Hz f a i e v Nf (w & Ew & ->). rewrite total_spec in Ew. destruct (D z x Hz) as (_ & _ & _ & _ & D5 & _).
      destruct (D5 _ _ _ _ _ Nf Ew) as (q & -> & Lq). exists (q * cm2). split; [reflexivity|nra]. }
    assert (Dif : forall z x, lib z = Some x -> forall f a i e e' v, cast odd f <> Sterile -> times (diff_at E x (cast odd f) a i e e') cm2GeV v ->
      exists q, v = Num q /\ 0 <= q).
    { intros z x Hz f a i e e' v Nf (w & Ew & ->). rewrite diff_spec in Ew. destruct (D z x Hz) as (_ & _ & _ & _ & _ & D6 & _).
      destruct (D6 _ _ _ _ _ _ Nf Ew) as (q & -> & Lq). exists (q * cm2GeV). split; [reflexivity|nra]. }
    assert (Sn : forall q, 0 <= q -> sane (Num q) = true) by (intros q L; cbn; destruct (Rlt_dec q 0); [lra|reflexivity]).
    assert (Act : forall f, (f < 3)%nat -> cast odd f <> Sterile) by (intros [|[|[|f]]] L; try discriminate; lia).
    assert (Rat : forall z x, lib z = Some x -> forall f a i e e' v, (f < 3)%nat ->
      (exists n d, times (diff_at E x (cast odd f) a i e e') cm2GeV n /\ times (total_at E x (cast odd f) a i e) cm2 d /\ quotient n d v) -> sane v = true).
    { intros z x Hz f a i e e' v L (n & d & Hn & Hd & ->).
      destruct (Dif z x Hz _ _ _ _ _ _ (Act f L) Hn) as (qn & -> & Ln). destruct (Tot z x Hz _ _ _ _ _ (Act f L) Hd) as (qd & -> & Ld).
      unfold is_zero. destruct (Req_EM_T qn 0) as [Zn|Zn]; [apply Sn; lra|].
      cbn [xdiv]. destruct (Req_EM_T qd 0) as [Zd|Zd].
      - exfalso. destruct Hn as (wn & Hn & En), Hd as (wd & Hd & Ed). destruct (D z x Hz) as (_ & _ & _ & _ & _ & _ & D5).
        destruct wd as [yd| | |]; try discriminate Ed. cbn in Ed. injection Ed as Ed.
        assert (yd = 0) by (apply Rmult_eq_reg_r with cm2; [lra|lra]). subst yd.
        rewrite total_spec in Hd. rewrite diff_spec in Hn. rewrite (D5 _ _ _ _ _ _ (Act f L) Hd Hn) in En. cbn in En. injection En as En. apply Zn. rewrite En. ring.
      - apply Sn. apply Rmult_le_pos; [exact Ln|]. apply Rlt_le, Rinv_0_lt_compat. lra. }
    constructor.
    + exact Hl.
    + unfold has_glashow. intro K. destruct (lib electron) as [x|] eqn:Ex; [eauto|]. exfalso. apply andb_true_iff in K as [K1 K2].
      apply Hg; [exact K1| |reflexivity]. intros K3. rewrite K3 in K2. discriminate.
    + intros z x Hz. destruct (D z x Hz) as (D1 & D2 & D3 & D4 & _). auto.
    + intros k v Ck Hk. destruct k; cbn in Ck; try contradiction; destruct Hk as (z & x & _ & Hz & Hk).
      * destruct (Tot z x Hz _ _ _ _ _ (Act f Ck) Hk) as (q & -> & Lq). auto.
      * destruct (Tot z x Hz _ _ _ _ _ (Act f Ck) Hk) as (q & -> & Lq). auto.
      * eapply Rat; eassumption.
      * eapply Rat; eassumption.
      * destruct (Dif z x Hz _ _ _ _ _ _ (Act f Ck) Hk) as (q & -> & Lq). auto.
      * destruct (Dif z x Hz _ _ _ _ _ _ (Act f Ck) Hk) as (q & -> & Lq). auto.
  - constructor; [exact Hl|]. intros z x Hz. destruct (D z x Hz) as (D1 & D2 & D3 & D4 & _). repeat split.
    + intros e f a i Z. destruct (D1 e f a i) as (v & Hv). congruence.
    + intros e e' f a i Z. destruct (D2 e e' f a i) as (v & Hv). congruence.
    + intros e e' f a i Z. destruct (D3 e e' f a i) as (v & Hv). congruence.
    + intros e e' e'' f a i Z. destruct (D4 e e' e'' f a i) as (v & Hv). congruence.
Qed.

(** ** How many neutrinos come out *)

(** sum over the outgoing nodes above the first *)
Fixpoint sum_to (n : nat) (g : nat -> R) : R := match n with O => 0 | S n' => sum_to n' g + g (S n') end.

(** If the average differential cross section is the exact average of one with
    integral [F], the spectrum counted by bins has, times the total, the
    integral between the first node and the one below the incoming. *)
Theorem c75_row_sum s l s' t c x r a f fl e F D q :
  mk s = Ok (l, s') -> nth_error l t = Some c -> lib c = Some x -> particle nt r a -> (f < numneu)%nat -> flavour_of f fl -> (S e < ne)%nat ->
  (forall b, (b < e)%nat -> x_avdiff x (E (S e)) (E b) (E (S b)) fl a NC = Ok (Num ((F (E (S b)) - F (E b)) / (E (S b) - E b)))) ->
  (forall b, (b < e)%nat -> E b < E (S b)) ->
  s' (SNC t r f (S e)) = Some (Num q) -> q <> 0 ->
  (forall b, (b < e)%nat -> s' (DNC t r f (S e) (S b)) = Some (Num (D (S b)))) ->
  q * sum_to e (fun b => D b * (E b - E (b - 1)%nat)) = (F (E e) - F (E 0%nat)) * cm2GeV.
Proof.
  intros H Hc Hx Hp Hf Hfl He HF HE Hq Nq HD.
  assert (T : forall b, (b < e)%nat -> q * D (S b) = (F (E (S b)) - F (E b)) / (E (S b) - E b) * cm2GeV).
  { intros b Lb. destruct (c75_spectra s l s' t c r a f fl (S e) (S b) H Hc Hp Hf Hfl He ltac:(lia)) as (x' & Hx' & Sp).
    rewrite Hx in Hx'. injection Hx' as <-.
    destruct (c75_totals s l s' t c r a f fl (S e) H Hc Hp Hf Hfl He) as (x' & vc & vn & Hx' & _ & Tn & _ & Sn & _).
    rewrite Hx in Hx'. injection Hx' as <-. destruct (Sp NC (or_intror eq_refl)) as (n1 & d1 & v1 & [_ N1] & T1 & V1 & [S3 S4] & _).
    assert (d1 = vn). { destruct T1 as [_ T1], Tn as [_ Tn]. specialize (T1 e eq_refl). specialize (Tn e eq_refl). congruence. } subst d1.
    specialize (N1 b eq_refl). rewrite HF in N1 by exact Lb. injection N1 as <-.
    rewrite HD in V1 by exact Lb. injection V1 as <-. rewrite Sn in Hq. injection Hq as Hq. rewrite Hq in S4. cbn [xmul] in S3, S4.
    set (y := (F (E (S b)) - F (E b)) / (E (S b) - E b) * cm2GeV) in *.
    destruct (Req_dec y 0) as [Zy|Zy].
    - rewrite Zy in S3. injection (S3 eq_refl) as ->. rewrite Zy. ring.
    - injection (S4 y q eq_refl eq_refl Zy Nq) as ->. field. exact Nq. }
  clear - T HE. induction e as [|e IH]; cbn [sum_to].
  - ring.
  - rewrite Rmult_plus_distr_l, IH; [|intros b Lb; apply HE; lia|intros b Lb; apply T; lia].
    replace (S e - 1)%nat with e by lia. rewrite <- Rmult_assoc, (T e) by lia. specialize (HE e ltac:(lia)). field. lra.
Qed.

End Props.


(** ** Cases *)

Definition ex_E (n : nat) : R := INR n + 1.
(** total 2, differential 1 for the active flavours *)
Definition ex_val (v : R) (f : flavour) : xval := match f with Sterile => Num 0 | _ => Num v end.
Definition ex_xs : xs := Xs (fun _ f _ _ => Ok (ex_val 2 f)) (fun _ _ f _ _ => Ok (ex_val 1 f))
  (fun _ _ f _ _ => Ok (ex_val 2 f)) (fun _ _ _ f _ _ => Ok (ex_val 1 f)).
Definition ex_lib (c : Z) : option xs := if Z.eqb c isoscalar_nucleon || Z.eqb c electron then Some ex_xs else None.
Definition ex_mk (lib : Z -> option xs) (nt : nutype) (nn n : nat) (g : bool) (odd : nat -> flavour) :=
  make lib (fun _ _ k => Num (INR k)) (fun _ _ _ => Num 7) 3 5 1 nt nn n ex_E g odd.
Definition blank : store := fun _ => None.

Ltac calls := refine (conj _ (conj _ (conj _ (conj _ _)))); [intros; eexists; reflexivity..|].
Ltac at_node H := let H1 := fresh in let H2 := fresh in destruct H as [H1 H2];
  match type of H1 with ?e = _ -> _ => destruct e; [clear H2; specialize (H1 eq_refl)|clear H1; specialize (H2 _ eq_refl); rename H2 into H1] end;
  cbn in H1; injection H1 as H1.
Lemma ex_number v f : 0 <= v -> f <> Sterile -> number (ex_val v f).
Proof. intros L N. destruct f; try contradiction; exists v; auto. Qed.
Lemma ex_sound E x : x = ex_xs -> sound E x.
Proof.
  intros ->. calls. refine (conj _ (conj _ _)).
  - intros fl a i e v N T. at_node T; subst v; apply ex_number; lra || assumption.
  - intros fl a i e e' v N T. at_node T; subst v; apply ex_number; lra || assumption.
  - intros fl a i e e' v N T _. exfalso. at_node T; destruct fl; try contradiction; injection H; lra.
Qed.

Lemma ex_made nt nn n g odd : exists l s', ex_mk ex_lib nt nn n g odd blank = Ok (l, s').
Proof.
  apply c75_succeeds; try lra.
  - right. discriminate.
  - intros _ _. discriminate.
  - intros c x. unfold ex_lib. destruct (_ || _); [|discriminate]. intros [= <-]. apply ex_sound. reflexivity.
Qed.

(** Both particles, four flavours, three nodes, the resonance on. *)
Example c75_nonvacuous odd : exists s', ex_mk ex_lib Both 4 3 true odd blank = Ok ([isoscalar_nucleon], s') /\
  s' (SNC 0 1 2 2) = Some (Num 6) /\ s' (DNC 0 1 2 2 1) = Some (Num (5 / 6)) /\ s' (DCC 0 1 3 2 1) = Some (Num 0) /\
  s' (DNC 0 1 2 1 2) = None /\ s' (DGR 2 1) = Some (Num (5 / 6)) /\
  s' (TALL 1 2 0) = Some (Num 1) /\ s' (TALL 0 2 0) = Some (Num 0).
Proof.
  destruct (ex_made Both 4 3 true odd) as (l & s' & H).
  assert (l = [isoscalar_nucleon]). { apply (proj1 (proj2 (c75_targets _ _ _ _ _ _ _ _ _ _ _ _ _)) (or_introl eq_refl) l s' H). } subst l.
  exists s'. split; [exact H|].
  destruct (c75_totals _ _ _ _ _ _ _ _ _ _ _ _ _ _ _ 0 _ 1 true 2 Tau 2 H eq_refl (or_intror (conj eq_refl eq_refl)) ltac:(lia) eq_refl ltac:(lia))
    as (x & vc & vn & Hx & _ & [_ Tn] & _ & Sn & _). injection Hx as <-. injection (Tn 1%nat eq_refl) as <-.
  split; [rewrite Sn; cbn; repeat f_equal; lra|].
  destruct (c75_spectra _ _ _ _ _ _ _ _ _ _ _ _ _ _ _ 0 _ 1 true 2 Tau 2 1 H eq_refl (or_intror (conj eq_refl eq_refl)) ltac:(lia) eq_refl ltac:(lia) ltac:(lia))
    as (x & Hx & Sp). injection Hx as <-. destruct (Sp NC (or_intror eq_refl)) as (n1 & d1 & v & [_ N] & [_ D] & V & [_ Q] & _).
  injection (N 0%nat eq_refl) as <-. injection (D 1%nat eq_refl) as <-. cbn in Q.
  specialize (Q (1 * 5) (2 * 3) eq_refl eq_refl ltac:(lra) ltac:(lra)). rewrite Q in V.
  split; [rewrite V; repeat f_equal; lra|].
  destruct (c75_spectra _ _ _ _ _ _ _ _ _ _ _ _ _ _ _ 0 _ 1 true 3 Sterile 2 1 H eq_refl (or_intror (conj eq_refl eq_refl)) ltac:(lia) eq_refl ltac:(lia) ltac:(lia))
    as (x & Hx & Sp'). injection Hx as <-. destruct (Sp' CC (or_introl eq_refl)) as (n2 & d2 & v' & [_ N'] & _ & V' & [Q' _] & _).
  injection (N' 0%nat eq_refl) as <-. cbn in Q'. rewrite Q' in V' by (f_equal; lra).
  split; [exact V'|].
  destruct (c75_frame _ _ _ _ _ _ _ _ _ _ _ _ _ _ _ H) as (Fr & _). split; [apply (Fr 0%nat 1%nat 2%nat 1%nat 2%nat); lia|].
  destruct (c75_glashow_partial _ _ _ _ _ _ _ _ _ _ _ _ _ _ _ 2 H eq_refl ltac:(discriminate) ltac:(lia)) as (x & d3 & Hx & [_ Dg] & _ & G).
  injection Hx as <-. injection (Dg 1%nat eq_refl) as <-. destruct (G 1%nat ltac:(lia)) as (n3 & [_ Ng] & G').
  injection (Ng 0%nat eq_refl) as <-. split; [rewrite (G' (1 * 5) (2 * 3) eq_refl eq_refl) by lra; repeat f_equal; lra|].
  destruct (c75_tau _ _ _ _ _ _ _ _ _ _ _ _ _ _ _ 1 true 2 0 H (or_intror (conj eq_refl eq_refl)) ltac:(lia) ltac:(lia)) as [T1 _].
  destruct (c75_tau _ _ _ _ _ _ _ _ _ _ _ _ _ _ _ 0 false 2 0 H (or_introl (conj eq_refl eq_refl)) ltac:(lia) ltac:(lia)) as [T0 _].
  split; [rewrite T1|rewrite T0]; cbn; repeat f_equal; lra.
Qed.

(** ** Refutations *)

(** The spectra of the resonance are neither guarded nor checked: where the
    total and the differential both vanish, the entry is not a number. *)
Definition zero_xs : xs := Xs (fun _ _ _ _ => Ok (Num 0)) (fun _ _ _ _ _ => Ok (Num 0))
  (fun _ _ _ _ _ => Ok (Num 0)) (fun _ _ _ _ _ _ => Ok (Num 0)).
Definition zero_lib (c : Z) : option xs := if Z.eqb c isoscalar_nucleon || Z.eqb c electron then Some zero_xs else None.
Theorem c75_resonance_nan_refuted odd : exists l s', ex_mk zero_lib Antineutrino 3 3 true odd blank = Ok (l, s') /\
  s' (DNC 0 0 0 2 1) = Some (Num 0) /\ s' (DGR 2 1) = Some NaN.
Proof.
  assert (Snd : forall E x, x = zero_xs -> sound E x).
  { intros E x ->. calls. refine (conj _ (conj _ _)).
    - intros fl a i e v N T. at_node T; subst v; exists 0; split; reflexivity || lra.
    - intros fl a i e e' v N T. at_node T; subst v; exists 0; split; reflexivity || lra.
    - intros fl a i e e' v N _ T. at_node T; subst v; reflexivity. }
  destruct (c75_succeeds zero_lib (fun _ _ k => Num (INR k)) (fun _ _ _ => Num 7) 3 5 1 Antineutrino 3 3 ex_E true odd blank) as (l & s' & H); try lra.
  { right. discriminate. } { intros _ _. discriminate. }
  { intros c x. unfold zero_lib. destruct (_ || _); [|discriminate]. intros [= <-]. apply Snd. reflexivity. }
  exists l, s'. split; [exact H|].
  assert (l = [isoscalar_nucleon]). { apply (proj1 (proj2 (c75_targets _ _ _ _ _ _ _ _ _ _ _ _ _)) (or_introl eq_refl) l s' H). } subst l.
  split.
  - destruct (c75_spectra _ _ _ _ _ _ _ _ _ _ _ _ _ _ _ 0 _ 0 true 0 Electron 2 1 H eq_refl (conj eq_refl eq_refl) ltac:(lia) eq_refl ltac:(lia) ltac:(lia))
      as (x & Hx & Sp). injection Hx as <-. destruct (Sp NC (or_intror eq_refl)) as (n & d & v & [_ N] & _ & V & [Q _] & _).
    injection (N 0%nat eq_refl) as <-. rewrite V, Q; [reflexivity|]. cbn. f_equal. lra.
  - apply made in H as [_ [W _]]. destruct (W (DGR 2 1)) as (v & A & (x & Hx & n & d & (n0 & N & ->) & (d0 & D & ->) & ->) & _).
    { right; left. split; [reflexivity|]. exists 2%nat. split; [lia|]. right; right. exists 1%nat. auto. }
    injection Hx as <-. injection N as <-. injection D as <-. rewrite A. cbn. f_equal.
    destruct (Req_EM_T (0 * 3) 0); [|lra]. destruct (Rlt_dec 0 (0 * 5)); [lra|]. destruct (Rlt_dec (0 * 5) 0); [lra|reflexivity].
Qed.

(** For sterile flavours nothing is checked: infinite spectra are accepted. *)
Definition odd_xs : xs := Xs (fun _ f _ _ => Ok (ex_val 2 f)) (fun _ _ f _ _ => Ok (Num 1))
  (fun _ _ f _ _ => Ok (ex_val 2 f)) (fun _ _ _ f _ _ => Ok (Num 1)).
Definition odd_lib (c : Z) : option xs := if Z.eqb c isoscalar_nucleon then Some odd_xs else None.
Theorem c75_sterile_infinite_refuted odd : exists l s', ex_mk odd_lib Neutrino 4 3 false odd blank = Ok (l, s') /\
  s' (DNC 0 0 3 2 1) = Some PInf.
Proof.
  assert (Snd : forall E x, x = odd_xs -> sound E x).
  { intros E x ->. calls. refine (conj _ (conj _ _)).
    - intros fl a i e v N T. at_node T; subst v; apply ex_number; lra || assumption.
    - intros fl a i e e' v N T. at_node T; subst v; exists 1; split; reflexivity || lra.
    - intros fl a i e e' v N T _. exfalso. at_node T; destruct fl; try contradiction; injection H; lra. }
  destruct (c75_succeeds odd_lib (fun _ _ k => Num (INR k)) (fun _ _ _ => Num 7) 3 5 1 Neutrino 4 3 ex_E false odd blank) as (l & s' & H); try lra.
  { right. discriminate. }
  { intros c x. unfold odd_lib. destruct (Z.eqb _ _); [|discriminate]. intros [= <-]. apply Snd. reflexivity. }
  exists l, s'. split; [exact H|].
  assert (l = [isoscalar_nucleon]). { apply (proj1 (proj2 (c75_targets _ _ _ _ _ _ _ _ _ _ _ _ _)) (or_introl eq_refl) l s' H). } subst l.
  apply made in H as [_ [W _]]. destruct (W (DNC 0 0 3 2 1)) as (v & A & (c & x & Hc & Hx & n & d & (n0 & N & ->) & (d0 & D & ->) & ->) & _).
  { left. exists 0%nat. split; [cbn; lia|]. exists 0%nat, 3%nat, 2%nat. split; [repeat split; cbn; lia|]. right. exists 1%nat. auto. }
  injection Hc as <-. injection Hx as <-. injection N as <-. injection D as <-. rewrite A. cbn. f_equal.
  destruct (Req_EM_T (1 * 5) 0); [lra|]. destruct (Req_EM_T (0 * 3) 0); [|lra]. destruct (Rlt_dec 0 (1 * 5)); [reflexivity|lra].
Qed.

(** With five or six flavours the cast gives no flavour of the enumeration:
    what the tables hold depends on what the compiler makes of it. *)
Theorem c75_fifth_flavour_refuted : exists odd1 odd2 l s1 s2,
  ex_mk ex_lib Neutrino 5 3 false odd1 blank = Ok (l, s1) /\ ex_mk ex_lib Neutrino 5 3 false odd2 blank = Ok (l, s2) /\
  s1 (SNC 0 0 4 1) = Some (Num 0) /\ s2 (SNC 0 0 4 1) = Some (Num 6).
Proof.
  exists (fun _ => Sterile), (fun _ => Electron). 
  destruct (ex_made Neutrino 5 3 false (fun _ => Sterile)) as (l1 & s1 & H1). destruct (ex_made Neutrino 5 3 false (fun _ => Electron)) as (l2 & s2 & H2).
  assert (l1 = [isoscalar_nucleon]). { apply (proj1 (proj2 (c75_targets _ _ _ _ _ _ _ _ _ _ _ _ _)) (or_introl eq_refl) l1 s1 H1). } subst l1.
  assert (l2 = [isoscalar_nucleon]). { apply (proj1 (proj2 (c75_targets _ _ _ _ _ _ _ _ _ _ _ _ _)) (or_introl eq_refl) l2 s2 H2). } subst l2.
  exists [isoscalar_nucleon], s1, s2. split; [exact H1|]. split; [exact H2|].
  apply made in H1 as [_ [W1 _]]. apply made in H2 as [_ [W2 _]].
  assert (K : forall t, all_keys Neutrino 5 3 t [isoscalar_nucleon] (SNC 0 0 4 1)).
  { intro t. left. exists 0%nat. split; [cbn; lia|]. exists 0%nat, 4%nat, 1%nat. split; [repeat split; cbn; lia|]. left. right. left. reflexivity. }
  destruct (W1 _ (K _)) as (v & A & (c & x & Hc & Hx & n & N & ->) & _). injection Hc as <-. injection Hx as <-. injection N as <-.
  destruct (W2 _ (K _)) as (v & A' & (c & x & Hc & Hx & n & N & ->) & _). injection Hc as <-. injection Hx as <-. injection N as <-.
  rewrite A, A'. cbn. split; repeat f_equal; lra.
Qed.

(** A library that conserves neutrinos: the total at energy [y] is [y], and a
    neutrino that scatters comes out between 1 and 2.  Averages are exact. *)
Definition clamp (y : R) : R := Rmax 0 (Rmin 1 (y - 1)).
Definition spread (y z : R) : R := y * clamp z.
Definition flat (y z : R) : R := if Rle_dec 1 z then (if Rle_dec z 2 then y else 0) else 0.
Definition keep_xs : xs := Xs (fun y _ _ _ => Ok (Num y)) (fun y z _ _ _ => Ok (Num (flat y z)))
  (fun a b _ _ _ => Ok (Num ((b * b / 2 - a * a / 2) / (b - a))))
  (fun y a b _ _ _ => Ok (Num ((spread y b - spread y a) / (b - a)))).
Definition keep_lib (c : Z) : option xs := if Z.eqb c isoscalar_nucleon then Some keep_xs else None.

Lemma clamp_mono a b : a <= b -> clamp a <= clamp b.
Proof. intro L. unfold clamp. apply Rle_max_compat_l. apply Rle_min_compat_l. lra. Qed.
Lemma ex_E_S n : ex_E (S n) = ex_E n + 1.
Proof. unfold ex_E. rewrite S_INR. ring. Qed.
Lemma ex_E_pos n : 1 <= ex_E n.
Proof. unfold ex_E. pose proof (pos_INR n). lra. Qed.

Lemma keep_sound x : x = keep_xs -> sound ex_E x.
Proof.
  intros ->. calls. refine (conj _ (conj _ _)).
  - intros fl a i e v N T. at_node T; subst v; eexists; (split; [reflexivity|]).
    + pose proof (ex_E_pos 0). lra.
    + rewrite ex_E_S. pose proof (ex_E_pos e). replace (ex_E e + 1 - ex_E e) with 1 by ring. nra.
  - intros fl a i e e' v N T. at_node T; subst v; eexists; (split; [reflexivity|]).
    + pose proof (ex_E_pos e). unfold flat. destruct (Rle_dec _ _); [destruct (Rle_dec _ _)|]; lra.
    + rewrite ex_E_S. pose proof (ex_E_pos e). pose proof (clamp_mono (ex_E e') (ex_E e' + 1) ltac:(lra)).
      unfold spread. replace (ex_E e' + 1 - ex_E e') with 1 by ring. nra.
  - intros fl a i e e' v N T _. exfalso. at_node T.
    + pose proof (ex_E_pos 0). lra.
    + rewrite ex_E_S in H. pose proof (ex_E_pos e). replace (ex_E e + 1 - ex_E e) with 1 in H by ring. nra.
Qed.

(** Every neutrino that scatters comes out exactly once, yet the tables make
    more come out than go in: the differential is taken at the node and the
    total averaged over the bin below. *)
Theorem c75_number_refuted odd : exists l s' D1 D2 q,
  (forall y, 2 <= y -> spread y y - spread y 0 = y) /\
  make keep_lib (fun _ _ _ => Num 0) (fun _ _ _ => Num 0) 1 1 1 Neutrino 3 4 ex_E false odd blank = Ok (l, s') /\
  s' (SNC 0 0 0 3) = Some (Num q) /\ s' (DNC 0 0 0 3 1) = Some (Num D1) /\ s' (DNC 0 0 0 3 2) = Some (Num D2) /\
  D1 * (ex_E 1 - ex_E 0) + D2 * (ex_E 2 - ex_E 1) > 1.
Proof.
  destruct (c75_succeeds keep_lib (fun _ _ _ => Num 0) (fun _ _ _ => Num 0) 1 1 1 Neutrino 3 4 ex_E false odd blank) as (l & s' & H); try lra.
  { right. discriminate. }
  { intros c x. unfold keep_lib. destruct (Z.eqb _ _); [|discriminate]. intros [= <-]. apply keep_sound. reflexivity. }
  assert (l = [isoscalar_nucleon]). { apply (proj1 (proj2 (c75_targets _ _ _ _ _ _ _ _ _ _ _ _ _)) (or_introl eq_refl) l s' H). } subst l.
  destruct (c75_totals _ _ _ _ _ _ _ _ _ _ _ _ _ _ _ 0 _ 0 false 0 Electron 3 H eq_refl (conj eq_refl eq_refl) ltac:(lia) eq_refl ltac:(lia))
    as (x & vc & vn & Hx & _ & [_ Tn] & _ & Sn & A). injection Hx as <-. destruct (A ltac:(lia)) as (qc & q & _ & Eq & _ & Lq).
  rewrite Eq in Sn. injection (Tn 2%nat eq_refl) as <-.
  assert (Q : q = 7 / 2). { cbn [xmul] in Eq. injection Eq as <-. rewrite (ex_E_S 2). unfold ex_E. cbn. field. }
  destruct (c75_spectra _ _ _ _ _ _ _ _ _ _ _ _ _ _ _ 0 _ 0 false 0 Electron 3 1 H eq_refl (conj eq_refl eq_refl) ltac:(lia) eq_refl ltac:(lia) ltac:(lia))
    as (x & Hx & S1). injection Hx as <-. destruct (S1 NC (or_intror eq_refl)) as (n1 & d1 & v1 & _ & _ & V1 & _ & P1).
  destruct (P1 ltac:(lia)) as (D1 & -> & _).
  destruct (c75_spectra _ _ _ _ _ _ _ _ _ _ _ _ _ _ _ 0 _ 0 false 0 Electron 3 2 H eq_refl (conj eq_refl eq_refl) ltac:(lia) eq_refl ltac:(lia) ltac:(lia))
    as (x & Hx & S2). injection Hx as <-. destruct (S2 NC (or_intror eq_refl)) as (n2 & d2 & v2 & _ & _ & V2 & _ & P2).
  destruct (P2 ltac:(lia)) as (D2 & -> & _).
  exists [isoscalar_nucleon], s', D1, D2, q.
  assert (Sum : q * sum_to 2 (fun b => (match b with 1 => D1 | _ => D2 end)%nat * (ex_E b - ex_E (b - 1)%nat)) = (spread (ex_E 3) (ex_E 2) - spread (ex_E 3) (ex_E 0%nat)) * 1).
  { eapply (c75_row_sum keep_lib _ _ _ _ _ _ _ _ _ _ _ blank _ s' 0 _ keep_xs 0 false 0 Electron 2 (spread (ex_E 3)) (fun b => match b with 1%nat => D1 | _ => D2 end)); try exact H; try reflexivity.
    - split; reflexivity.
    - lia.
    - lia.
    - intros b _. rewrite ex_E_S. lra.
    - exact Sn.
    - lra.
    - intros [|[|b]] Lb; [exact V1|exact V2|lia]. }
  refine (conj _ (conj H (conj Sn (conj V1 (conj V2 _))))).
  - intros y L. unfold spread, clamp. rewrite (Rmin_left 1 (y - 1)) by lra. rewrite (Rmax_right 0 1) by lra.
    rewrite (Rmin_right 1 (0 - 1)) by lra. rewrite Rmax_left by lra. ring.
  - assert (E0 : ex_E 0 = 1) by (unfold ex_E; cbn; lra). assert (E1 : ex_E 1 = 2) by (unfold ex_E; cbn; lra).
    assert (E2 : ex_E 2 = 3) by (unfold ex_E; cbn; lra). assert (E3 : ex_E 3 = 4) by (unfold ex_E; cbn; lra).
    cbn [sum_to Nat.sub] in Sum. rewrite E0, E1, E2, E3 in *. revert Sum. unfold spread, clamp.
    rewrite (Rmin_left 1 (3 - 1)) by lra. rewrite (Rmax_right 0 1) by lra. rewrite (Rmin_right 1 (1 - 1)) by lra. rewrite Rmax_left by lra.
    rewrite Q. lra.
Qed.

Print Assumptions c75_targets.
Print Assumptions c75_totals.
Print Assumptions c75_spectra.
Print Assumptions c75_frame.
Print Assumptions c75_tau.
Print Assumptions c75_glashow_partial.
Print Assumptions c75_no_electrons.
Print Assumptions c75_defined.
Print Assumptions c75_succeeds.
Print Assumptions c75_row_sum.
Print Assumptions c75_resonance_nan_refuted.
Print Assumptions c75_sterile_infinite_refuted.
Print Assumptions c75_fifth_flavour_refuted.
Print Assumptions c75_number_refuted.
