(** The life of an evolution object.

    src/nuSQuIDS.cpp: init (77-257), Set_E (142-153), PreDerive (278-297),
    InitializeInteractions (970-1044), Set_Body, Set_Track, EvolveState
    (1196-1305), Set_initial_state (1307-1444), iniH0, AntineutrinoCPFix,
    iniProjectors, SetIniFlavorProyectors, GetHamiltonian (1602-1686), the
    setters (2801-2900) and the move operations (2904-2993);
    include/nuSQuIDS/nuSQuIDS.h: members (430-501), InitializeInteractions
    and the structure getter (868-886), SetNeutrinoCrossSections and
    Set_NeutrinoSources (1041-1055).

    A method is a function from the object to an outcome, the object it leaves
    behind (also when it throws) and the list of things it did that can be
    seen from outside: where the medium was asked, which tables were used,
    which evolution steps were made.

    External (the record [env]): the SQuIDS integrator, which may ask for the
    derivatives at any times it likes and may fail; what SQuIDS [ini] does to
    the step size and to the numerics switch; the map from flavour or mass
    content to state; the correction made by PositivizeFlavors; the exact step
    used at constant density; the default cross sections; TauDecaySpectra::Init
    and SQUIDS_MAX_HILBERT_DIM.  Real numbers stand for doubles. *)
From Coq Require Import Reals List Arith Bool ZArith Lia Lra.
From Verif Require Import IntModel XsModel.
Import ListNotations.
Open Scope R_scope.

(** nuSQuIDS.h:68-71 *)
Inductive basis := BMass | BInter | BFlavor.
Definition basis_eqb (a b : basis) : bool :=
  match a, b with BMass, BMass | BInter, BInter | BFlavor, BFlavor => true | _, _ => false end.

(** A medium is known by a name and by its answer to IsConstantDensity (body.h). *)
Record body := Body { b_name : nat; b_const : bool }.

(** A trajectory: initial and final position (body.h, Track). *)
Record track := Track { tr_ini : R; tr_fin : R }.

(** A cross-section library: its name, the targets it offers, and whether all
    its values pass validateCrossSection (1066-1079). *)
Record xslib := Xslib { x_name : nat; x_proton : bool; x_neutron : bool; x_iso : bool;
                        x_electron : bool; x_valid : bool }.

(** InteractionStructure: how far it was filled, from which library, and
    whether the Glashow tables were filled (1148).  [TEmpty]: no targets, all
    arrays empty. *)
Inductive fill := TEmpty | TPart | TFull.
Record tabs := Tabs { tb_fill : fill; tb_targets : nat; tb_xs : nat; tb_gr : bool }.

(** The mixing parameters held by the SQuIDS [Const] object [params]. *)
Record pars := Pars {
  p_angle : nat -> nat -> R;
  p_phase : nat -> nat -> R;
  p_dm : nat -> R }.

Definition set_p_angle (v : nat -> nat -> R) (s : pars) : pars := Pars v (p_phase s) (p_dm s).
Definition set_p_phase (v : nat -> nat -> R) (s : pars) : pars := Pars (p_angle s) v (p_dm s).
Definition set_p_dm (v : nat -> R) (s : pars) : pars := Pars (p_angle s) (p_phase s) v.

(** The SQuIDS base object: clock, initial time, step, numerics switch and state. *)
Record sqd := Sqd {
  sq_t : R;
  sq_t0 : R;
  sq_h : R;
  sq_num : bool;
  sq_state : list R }.

Definition set_sq_t (v : R) (s : sqd) : sqd := Sqd v (sq_t0 s) (sq_h s) (sq_num s) (sq_state s).
Definition set_sq_t0 (v : R) (s : sqd) : sqd := Sqd (sq_t s) v (sq_h s) (sq_num s) (sq_state s).
Definition set_sq_h (v : R) (s : sqd) : sqd := Sqd (sq_t s) (sq_t0 s) v (sq_num s) (sq_state s).
Definition set_sq_num (v : bool) (s : sqd) : sqd := Sqd (sq_t s) (sq_t0 s) (sq_h s) v (sq_state s).
Definition set_sq_state (v : list R) (s : sqd) : sqd := Sqd (sq_t s) (sq_t0 s) (sq_h s) (sq_num s) v.

(** Switches — nuSQuIDS.h:454-501 (iinteraction, ioscillations, tauregeneration,
    iglashow, positivization, allowConstantDensityOscillationOnlyEvolution,
    use_full_hamiltonian_for_projector_evolution, enable_neutrino_sources),
    the basis and the positivity step. *)
Record opts := Opts {
  o_int : bool;
  o_osc : bool;
  o_tau : bool;
  o_gr : bool;
  o_pos : bool;
  o_const : bool;
  o_full : bool;
  o_src : bool;
  o_basis : basis;
  o_scale : R }.

Definition set_o_int (v : bool) (s : opts) : opts := Opts v (o_osc s) (o_tau s) (o_gr s) (o_pos s) (o_const s) (o_full s) (o_src s) (o_basis s) (o_scale s).
Definition set_o_osc (v : bool) (s : opts) : opts := Opts (o_int s) v (o_tau s) (o_gr s) (o_pos s) (o_const s) (o_full s) (o_src s) (o_basis s) (o_scale s).
Definition set_o_tau (v : bool) (s : opts) : opts := Opts (o_int s) (o_osc s) v (o_gr s) (o_pos s) (o_const s) (o_full s) (o_src s) (o_basis s) (o_scale s).
Definition set_o_gr (v : bool) (s : opts) : opts := Opts (o_int s) (o_osc s) (o_tau s) v (o_pos s) (o_const s) (o_full s) (o_src s) (o_basis s) (o_scale s).
Definition set_o_pos (v : bool) (s : opts) : opts := Opts (o_int s) (o_osc s) (o_tau s) (o_gr s) v (o_const s) (o_full s) (o_src s) (o_basis s) (o_scale s).
Definition set_o_const (v : bool) (s : opts) : opts := Opts (o_int s) (o_osc s) (o_tau s) (o_gr s) (o_pos s) v (o_full s) (o_src s) (o_basis s) (o_scale s).
Definition set_o_full (v : bool) (s : opts) : opts := Opts (o_int s) (o_osc s) (o_tau s) (o_gr s) (o_pos s) (o_const s) v (o_src s) (o_basis s) (o_scale s).
Definition set_o_src (v : bool) (s : opts) : opts := Opts (o_int s) (o_osc s) (o_tau s) (o_gr s) (o_pos s) (o_const s) (o_full s) v (o_basis s) (o_scale s).
Definition set_o_basis (v : basis) (s : opts) : opts := Opts (o_int s) (o_osc s) (o_tau s) (o_gr s) (o_pos s) (o_const s) (o_full s) (o_src s) v (o_scale s).
Definition set_o_scale (v : R) (s : opts) : opts := Opts (o_int s) (o_osc s) (o_tau s) (o_gr s) (o_pos s) (o_const s) (o_full s) (o_src s) (o_basis s) v.

(** Cross sections, interaction tables, interactions_initialized and the lengths
    of the last dimension of the buffers nc_factors, tau_*_decays and gr_factors
    (0 when never resized), the extents of interaction_cache, and the first
    extent of current_external_flux. *)
Record ints := Ints {
  i_ncs : option xslib;
  i_tabs : option tabs;
  i_done : bool;
  i_nc : nat;
  i_tau : nat;
  i_gr : nat;
  i_cache : option (nat * nat);
  i_flux : nat }.

Definition set_i_ncs (v : option xslib) (s : ints) : ints := Ints v (i_tabs s) (i_done s) (i_nc s) (i_tau s) (i_gr s) (i_cache s) (i_flux s).
Definition set_i_tabs (v : option tabs) (s : ints) : ints := Ints (i_ncs s) v (i_done s) (i_nc s) (i_tau s) (i_gr s) (i_cache s) (i_flux s).
Definition set_i_done (v : bool) (s : ints) : ints := Ints (i_ncs s) (i_tabs s) v (i_nc s) (i_tau s) (i_gr s) (i_cache s) (i_flux s).
Definition set_i_nc (v : nat) (s : ints) : ints := Ints (i_ncs s) (i_tabs s) (i_done s) v (i_tau s) (i_gr s) (i_cache s) (i_flux s).
Definition set_i_tau (v : nat) (s : ints) : ints := Ints (i_ncs s) (i_tabs s) (i_done s) (i_nc s) v (i_gr s) (i_cache s) (i_flux s).
Definition set_i_gr (v : nat) (s : ints) : ints := Ints (i_ncs s) (i_tabs s) (i_done s) (i_nc s) (i_tau s) v (i_cache s) (i_flux s).
Definition set_i_cache (v : option (nat * nat)) (s : ints) : ints := Ints (i_ncs s) (i_tabs s) (i_done s) (i_nc s) (i_tau s) (i_gr s) v (i_flux s).
Definition set_i_flux (v : nat) (s : ints) : ints := Ints (i_ncs s) (i_tabs s) (i_done s) (i_nc s) (i_tau s) (i_gr s) (i_cache s) v.

(** inusquids, ibody, ienergy, itrack, istate. *)
Record flags := Flags {
  f_nus : bool;
  f_body : bool;
  f_energy : bool;
  f_track : bool;
  f_state : bool }.

Definition set_f_nus (v : bool) (s : flags) : flags := Flags v (f_body s) (f_energy s) (f_track s) (f_state s).
Definition set_f_body (v : bool) (s : flags) : flags := Flags (f_nus s) v (f_energy s) (f_track s) (f_state s).
Definition set_f_energy (v : bool) (s : flags) : flags := Flags (f_nus s) (f_body s) v (f_track s) (f_state s).
Definition set_f_track (v : bool) (s : flags) : flags := Flags (f_nus s) (f_body s) (f_energy s) v (f_state s).
Definition set_f_state (v : bool) (s : flags) : flags := Flags (f_nus s) (f_body s) (f_energy s) (f_track s) v.

(** What H0_array was computed from (1609): mass differences, whether
    oscillations were on, energies. *)
Record hsnap := Hsnap { h_dm : nat -> R; h_osc : bool; h_E : list R }.

(** The object.  [q_x] is the current position stored in the track, [q_offset]
    is time_offset ([None]: never written), [q_proj r f] the parameters from
    which the flavour projector of [f] for neutrino type [r] was last built,
    [q_h0] what H0_array was last built from. *)
Record nus := Nus {
  q_nt : nt;
  q_numneu : nat;
  q_ne : nat;
  q_nrhos : nat;
  q_E : list R;
  q_pars : pars;
  q_sq : sqd;
  q_opts : opts;
  q_ints : ints;
  q_flags : flags;
  q_body : option body;
  q_track : option track;
  q_x : R;
  q_offset : option R;
  q_proj : nat -> nat -> pars;
  q_h0 : hsnap }.

Definition set_q_nt (v : nt) (s : nus) : nus := Nus v (q_numneu s) (q_ne s) (q_nrhos s) (q_E s) (q_pars s) (q_sq s) (q_opts s) (q_ints s) (q_flags s) (q_body s) (q_track s) (q_x s) (q_offset s) (q_proj s) (q_h0 s).
Definition set_q_numneu (v : nat) (s : nus) : nus := Nus (q_nt s) v (q_ne s) (q_nrhos s) (q_E s) (q_pars s) (q_sq s) (q_opts s) (q_ints s) (q_flags s) (q_body s) (q_track s) (q_x s) (q_offset s) (q_proj s) (q_h0 s).
Definition set_q_ne (v : nat) (s : nus) : nus := Nus (q_nt s) (q_numneu s) v (q_nrhos s) (q_E s) (q_pars s) (q_sq s) (q_opts s) (q_ints s) (q_flags s) (q_body s) (q_track s) (q_x s) (q_offset s) (q_proj s) (q_h0 s).
Definition set_q_nrhos (v : nat) (s : nus) : nus := Nus (q_nt s) (q_numneu s) (q_ne s) v (q_E s) (q_pars s) (q_sq s) (q_opts s) (q_ints s) (q_flags s) (q_body s) (q_track s) (q_x s) (q_offset s) (q_proj s) (q_h0 s).
Definition set_q_E (v : list R) (s : nus) : nus := Nus (q_nt s) (q_numneu s) (q_ne s) (q_nrhos s) v (q_pars s) (q_sq s) (q_opts s) (q_ints s) (q_flags s) (q_body s) (q_track s) (q_x s) (q_offset s) (q_proj s) (q_h0 s).
Definition set_q_pars (v : pars) (s : nus) : nus := Nus (q_nt s) (q_numneu s) (q_ne s) (q_nrhos s) (q_E s) v (q_sq s) (q_opts s) (q_ints s) (q_flags s) (q_body s) (q_track s) (q_x s) (q_offset s) (q_proj s) (q_h0 s).
Definition set_q_sq (v : sqd) (s : nus) : nus := Nus (q_nt s) (q_numneu s) (q_ne s) (q_nrhos s) (q_E s) (q_pars s) v (q_opts s) (q_ints s) (q_flags s) (q_body s) (q_track s) (q_x s) (q_offset s) (q_proj s) (q_h0 s).
Definition set_q_opts (v : opts) (s : nus) : nus := Nus (q_nt s) (q_numneu s) (q_ne s) (q_nrhos s) (q_E s) (q_pars s) (q_sq s) v (q_ints s) (q_flags s) (q_body s) (q_track s) (q_x s) (q_offset s) (q_proj s) (q_h0 s).
Definition set_q_ints (v : ints) (s : nus) : nus := Nus (q_nt s) (q_numneu s) (q_ne s) (q_nrhos s) (q_E s) (q_pars s) (q_sq s) (q_opts s) v (q_flags s) (q_body s) (q_track s) (q_x s) (q_offset s) (q_proj s) (q_h0 s).
Definition set_q_flags (v : flags) (s : nus) : nus := Nus (q_nt s) (q_numneu s) (q_ne s) (q_nrhos s) (q_E s) (q_pars s) (q_sq s) (q_opts s) (q_ints s) v (q_body s) (q_track s) (q_x s) (q_offset s) (q_proj s) (q_h0 s).
Definition set_q_body (v : option body) (s : nus) : nus := Nus (q_nt s) (q_numneu s) (q_ne s) (q_nrhos s) (q_E s) (q_pars s) (q_sq s) (q_opts s) (q_ints s) (q_flags s) v (q_track s) (q_x s) (q_offset s) (q_proj s) (q_h0 s).
Definition set_q_track (v : option track) (s : nus) : nus := Nus (q_nt s) (q_numneu s) (q_ne s) (q_nrhos s) (q_E s) (q_pars s) (q_sq s) (q_opts s) (q_ints s) (q_flags s) (q_body s) v (q_x s) (q_offset s) (q_proj s) (q_h0 s).
Definition set_q_x (v : R) (s : nus) : nus := Nus (q_nt s) (q_numneu s) (q_ne s) (q_nrhos s) (q_E s) (q_pars s) (q_sq s) (q_opts s) (q_ints s) (q_flags s) (q_body s) (q_track s) v (q_offset s) (q_proj s) (q_h0 s).
Definition set_q_offset (v : option R) (s : nus) : nus := Nus (q_nt s) (q_numneu s) (q_ne s) (q_nrhos s) (q_E s) (q_pars s) (q_sq s) (q_opts s) (q_ints s) (q_flags s) (q_body s) (q_track s) (q_x s) v (q_proj s) (q_h0 s).
Definition set_q_proj (v : nat -> nat -> pars) (s : nus) : nus := Nus (q_nt s) (q_numneu s) (q_ne s) (q_nrhos s) (q_E s) (q_pars s) (q_sq s) (q_opts s) (q_ints s) (q_flags s) (q_body s) (q_track s) (q_x s) (q_offset s) v (q_h0 s).
Definition set_q_h0 (v : hsnap) (s : nus) : nus := Nus (q_nt s) (q_numneu s) (q_ne s) (q_nrhos s) (q_E s) (q_pars s) (q_sq s) (q_opts s) (q_ints s) (q_flags s) (q_body s) (q_track s) (q_x s) (q_offset s) (q_proj s) v.

Definition put_sq_t (v : R) (s : nus) : nus := set_q_sq (set_sq_t v (q_sq s)) s.
Definition put_sq_t0 (v : R) (s : nus) : nus := set_q_sq (set_sq_t0 v (q_sq s)) s.
Definition put_sq_h (v : R) (s : nus) : nus := set_q_sq (set_sq_h v (q_sq s)) s.
Definition put_sq_num (v : bool) (s : nus) : nus := set_q_sq (set_sq_num v (q_sq s)) s.
Definition put_sq_state (v : list R) (s : nus) : nus := set_q_sq (set_sq_state v (q_sq s)) s.
Definition put_o_int (v : bool) (s : nus) : nus := set_q_opts (set_o_int v (q_opts s)) s.
Definition put_o_osc (v : bool) (s : nus) : nus := set_q_opts (set_o_osc v (q_opts s)) s.
Definition put_o_tau (v : bool) (s : nus) : nus := set_q_opts (set_o_tau v (q_opts s)) s.
Definition put_o_gr (v : bool) (s : nus) : nus := set_q_opts (set_o_gr v (q_opts s)) s.
Definition put_o_pos (v : bool) (s : nus) : nus := set_q_opts (set_o_pos v (q_opts s)) s.
Definition put_o_const (v : bool) (s : nus) : nus := set_q_opts (set_o_const v (q_opts s)) s.
Definition put_o_full (v : bool) (s : nus) : nus := set_q_opts (set_o_full v (q_opts s)) s.
Definition put_o_src (v : bool) (s : nus) : nus := set_q_opts (set_o_src v (q_opts s)) s.
Definition put_o_basis (v : basis) (s : nus) : nus := set_q_opts (set_o_basis v (q_opts s)) s.
Definition put_o_scale (v : R) (s : nus) : nus := set_q_opts (set_o_scale v (q_opts s)) s.
Definition put_i_ncs (v : option xslib) (s : nus) : nus := set_q_ints (set_i_ncs v (q_ints s)) s.
Definition put_i_tabs (v : option tabs) (s : nus) : nus := set_q_ints (set_i_tabs v (q_ints s)) s.
Definition put_i_done (v : bool) (s : nus) : nus := set_q_ints (set_i_done v (q_ints s)) s.
Definition put_i_nc (v : nat) (s : nus) : nus := set_q_ints (set_i_nc v (q_ints s)) s.
Definition put_i_tau (v : nat) (s : nus) : nus := set_q_ints (set_i_tau v (q_ints s)) s.
Definition put_i_gr (v : nat) (s : nus) : nus := set_q_ints (set_i_gr v (q_ints s)) s.
Definition put_i_cache (v : option (nat * nat)) (s : nus) : nus := set_q_ints (set_i_cache v (q_ints s)) s.
Definition put_i_flux (v : nat) (s : nus) : nus := set_q_ints (set_i_flux v (q_ints s)) s.
Definition put_f_nus (v : bool) (s : nus) : nus := set_q_flags (set_f_nus v (q_flags s)) s.
Definition put_f_body (v : bool) (s : nus) : nus := set_q_flags (set_f_body v (q_flags s)) s.
Definition put_f_energy (v : bool) (s : nus) : nus := set_q_flags (set_f_energy v (q_flags s)) s.
Definition put_f_track (v : bool) (s : nus) : nus := set_q_flags (set_f_track v (q_flags s)) s.
Definition put_f_state (v : bool) (s : nus) : nus := set_q_flags (set_f_state v (q_flags s)) s.
Definition put_p_angle (v : nat -> nat -> R) (s : nus) : nus := set_q_pars (set_p_angle v (q_pars s)) s.
Definition put_p_phase (v : nat -> nat -> R) (s : nus) : nus := set_q_pars (set_p_phase v (q_pars s)) s.
Definition put_p_dm (v : nat -> R) (s : nus) : nus := set_q_pars (set_p_dm v (q_pars s)) s.

(** * Outcomes *)

Inductive ub := NullPtr | Uninit | OutOfBounds | BadCast | AssertFail.
Inductive res := Done | Threw | Undef (u : ub).

Inductive event :=
| EvQuery (b : body) (time pos : R)              (* the medium was asked at [pos] *)
| EvTables (t : tabs)                            (* the interaction tables were used *)
| EvEvolve (dt h : R) (num : bool) (bs : basis)  (* SQuIDS::Evolve *)
| EvPositivize.

(** A call: outcome, object left behind, events. *)
Definition M : Type := nus -> res * nus * list event.

Definition ret : M := fun s => (Done, s, []).
Definition throw : M := fun s => (Threw, s, []).
Definition undef (u : ub) : M := fun s => (Undef u, s, []).
Definition modify (f : nus -> nus) : M := fun s => (Done, f s, []).
Definition emit (e : event) : M := fun s => (Done, s, [e]).
Definition seq_ (m1 m2 : M) : M := fun s =>
  match m1 s with
  | (Done, s1, e1) => match m2 s1 with (r, s2, e2) => (r, s2, e1 ++ e2) end
  | other => other
  end.
Definition read (f : nus -> M) : M := fun s => f s s.
Definition when (b : bool) (m : M) : M := if b then m else ret.
Fixpoint mfor (k i : nat) (f : nat -> M) : M :=
  match k with O => ret | S k' => seq_ (f i) (mfor k' (S i) f) end.
Fixpoint meach {A} (l : list A) (f : A -> M) : M :=
  match l with [] => ret | a :: l' => seq_ (f a) (meach l' f) end.

Declare Scope m_scope.
Delimit Scope m_scope with m.
Notation "a ;; b" := (seq_ a b) (at level 61, right associativity) : m_scope.
Open Scope m_scope.

(** * External parts *)

Record env := Env {
  (** SQuIDS::Evolve with numerics on: the times at which the derivatives are
      asked for, whether it succeeds, the clock if it fails, and the state. *)
  e_solve : nus -> R -> list R * bool * R * list R;
  e_ini_h : R -> R;                   (* SQuIDS::ini: effect on the step *)
  e_ini_num : bool -> bool;           (* and on the numerics switch *)
  e_mk : nus -> (nat -> nat -> nat -> R) -> basis -> list R;
  e_pos : nus -> list R;
  e_const : nus -> R -> list R;
  e_default : option xslib;           (* loadDefaultCrossSections; [None]: throws *)
  e_tau : list R -> bool;             (* TauDecaySpectra::Init returns *)
  e_maxdim : nat;                     (* SQUIDS_MAX_HILBERT_DIM *)
  e_h : R;                            (* step of a new SQuIDS object *)
  e_km : R }.

Section Machine.
Variable e : env.

(** round_up_to_aligned (nuSQuIDS.h:133) on numbers that do not wrap *)
Definition r4 (n : nat) : nat := (4 * ((n + 3) / 4))%nat.

(** The cast to int of a double truncates; out of range is undefined. *)
Definition rtrunc (r : R) : Z := if rle 0 r then Int_part r else (- Int_part (- r))%Z.
Definition int_max : Z := (2 ^ 31 - 1)%Z.
Definition to_int (r : R) : option Z :=
  let z := rtrunc r in
  if ((- int_max - 1 <=? z) && (z <=? int_max))%Z then Some z else None.

(** params.SetMixingAngle / SetPhase take ordered indices below the maximal
    dimension, SetEnergyDifference one from 1 (SQuIDS, assumed); otherwise
    they throw. *)
Definition accepts (i j : nat) : bool := Nat.ltb i j && Nat.ltb j (e_maxdim e).
Definition accepts1 (i : nat) : bool := Nat.ltb 0 i && Nat.ltb i (e_maxdim e).

Definition upd2 (f : nat -> nat -> R) (i j : nat) (v : R) : nat -> nat -> R :=
  fun a b => if Nat.eqb a i && Nat.eqb b j then v else f a b.
Definition upd1 (f : nat -> R) (i : nat) (v : R) : nat -> R :=
  fun a => if Nat.eqb a i then v else f a.

(** ** Mixing parameters — 2844-2894 *)

Definition set_angle (i j : nat) (v : R) : M := read (fun s =>
  if Nat.ltb (q_numneu s) i || Nat.ltb (q_numneu s) j then throw
  else if accepts i j
  then modify (fun s => put_f_state false (put_p_angle (upd2 (p_angle (q_pars s)) i j v) s))
  else throw).

Definition set_phase (i j : nat) (v : R) : M := read (fun s =>
  if Nat.ltb (q_numneu s) i || Nat.ltb (q_numneu s) j then throw
  else if accepts i j
  then modify (fun s => put_f_state false (put_p_phase (upd2 (p_phase (q_pars s)) i j v) s))
  else throw).

Definition set_dm (i : nat) (v : R) : M := read (fun s =>
  if Nat.ltb (q_numneu s) i then throw
  else if accepts1 i
  then modify (fun s => put_f_state false (put_p_dm (upd1 (p_dm (q_pars s)) i v) s))
  else throw).

(** 2883-2894 *)
Definition set_defaults : M :=
  set_angle 0 1 (583638 / 1000000) ;; set_angle 0 2 (149575 / 1000000) ;;
  set_angle 1 2 (855211 / 1000000) ;;
  set_dm 1 (7420 / 100000000) ;; set_dm 2 (2514 / 1000000) ;;
  set_phase 0 2 0.

(** ** Projectors and vacuum Hamiltonian — 1602-1679 *)

(** the double loop of 1619-1622 and 117-121: the phases of all ordered pairs
    change sign *)
Definition flip_phases : M := read (fun s =>
  mfor (q_numneu s) 0 (fun i =>
    mfor (q_numneu s - S i) (S i) (fun j =>
      read (fun s => set_phase i j (- p_phase (q_pars s) i j))))).

(** 1617-1625 *)
Definition cp_fix (rho : nat) : M := read (fun s =>
  when (is_anti (q_nt s) rho) flip_phases).

(** one rotation: RotateToB1 reads [params] as they are at that moment *)
Definition rotate (rho flv : nat) : M :=
  cp_fix rho ;;
  modify (fun s => set_q_proj (fun r f => if Nat.eqb r rho && Nat.eqb f flv
                                          then q_pars s else q_proj s r f) s) ;;
  cp_fix rho.

(** 1662-1679; iniProjectors (1627-1660) makes the same rotations *)
Definition set_projectors : M := read (fun s =>
  mfor (q_nrhos s) 0 (fun rho => mfor (q_numneu s) 0 (fun flv =>
    mfor (q_ne s) 0 (fun _ => rotate rho flv) ;; rotate rho flv))).

(** 1602-1615 with H0 (328-332) *)
Definition ini_h0 : M := modify (fun s =>
  if f_energy (q_flags s)
  then set_q_h0 (Hsnap (p_dm (q_pars s)) (o_osc (q_opts s)) (q_E s)) s else s).

(** ** Media, trajectories, switches *)

(** 1196-1199 *)
Definition set_body (b : option body) : M :=
  modify (fun s => put_f_body true (set_q_body b s)).

(** 1201-1209; a null trajectory is dereferenced *)
Definition set_track (t : option track) : M :=
  match t with
  | None => undef NullPtr
  | Some t =>
    modify (fun s => put_f_track true (set_q_track (Some t)
      (set_q_x (tr_ini t) (set_q_offset (Some (sq_t (q_sq s) - tr_ini t)) s))))
  end.

(** 142-153 *)
Definition set_E (v : R) : M := read (fun s =>
  if negb (Nat.eqb (q_ne s) 1) then throw
  else modify (fun s => put_f_state false (put_f_energy true (set_q_E [v] s)))).

(** 2801-2815 *)
Definition set_tau (b : bool) : M := read (fun s =>
  if negb (nt_eqb (q_nt s) Both) && b then throw
  else if negb (o_int (q_opts s)) && b then throw
  else if Nat.ltb (q_numneu s) 3 && b then throw
  else modify (put_o_tau b)).
Definition set_gr (b : bool) : M := read (fun s =>
  if negb (o_int (q_opts s)) && b then throw else modify (put_o_gr b)).

(** 2828-2834, 1225-1231 *)
Definition set_osc (b : bool) : M := modify (put_o_osc b).
Definition set_const (b : bool) : M := modify (put_o_const b).
Definition set_pos (b : bool) : M := modify (put_o_pos b).
Definition set_scale (v : R) : M := modify (put_o_scale v).

(** 2896-2900 *)
Definition set_basis (b : basis) : M :=
  if basis_eqb b BFlavor then throw else modify (put_o_basis b).

(** nuSQuIDS.h:1041-1055 *)
Definition set_xs (x : option xslib) : M :=
  modify (fun s => put_i_done false (put_i_ncs x s)).
Definition set_sources (b : bool) : M := modify (fun s =>
  put_o_src b (if b then put_i_flux (q_ne s) s else s)).

(** ** Interactions — 970-1044, GetCrossSections 1046-1190 *)

(** is the Glashow resonance in use (629, 787, 951, 1148) *)
Definition gr_on (s : nus) : bool :=
  o_gr (q_opts s) && (nt_eqb (q_nt s) Both || nt_eqb (q_nt s) NuBar).

(** 984-1030: the structure is created first and filled afterwards *)
Definition build_tables : M :=
  modify (put_i_tabs (Some (Tabs TEmpty 0 0 false))) ;;
  read (fun s => match i_ncs (q_ints s) with
    | None => match e_default e with None => throw | Some x => modify (put_i_ncs (Some x)) end
    | Some _ => ret end) ;;
  read (fun s => match i_ncs (q_ints s) with
    | None => undef NullPtr
    | Some x =>
      let n := if x_proton x && x_neutron x then 2%nat
               else if x_iso x then 1%nat else 0%nat in
      if Nat.eqb n 0 then throw
      else
        modify (put_i_tabs (Some (Tabs TPart n (x_name x) false))) ;;
        (if negb (x_valid x) then throw
         else if gr_on s && negb (x_electron x) then throw
         else modify (put_i_tabs (Some (Tabs TFull n (x_name x) (gr_on s)))))
    end).

Definition init_interactions : M := read (fun s =>
  if i_done (q_ints s) then ret
  else if negb (e_tau e (q_E s)) then throw
  else
    (match i_tabs (q_ints s) with None => build_tables | Some _ => ret end) ;;
    read (fun s =>
      when (o_int (q_opts s))
        (modify (put_i_nc (r4 (q_ne s))) ;;
         when (o_tau (q_opts s)) (modify (put_i_tau (r4 (q_ne s)))) ;;
         when (o_gr (q_opts s)) (modify (put_i_gr (r4 (q_ne s)))))) ;;
    modify (put_i_done true)).

(** ** One look at the medium — PreDerive 278-297

    UpdateInteractions (585-968) reads the tables, and writes the buffers at
    every node: nc_factors, the tau buffers if tau regeneration is on and
    gr_factors if the resonance is, when oscillations are on; the vectors of
    interaction_cache when they are off. *)
Definition use_interactions : M := read (fun s =>
  match i_tabs (q_ints s) with
  | None => undef NullPtr
  | Some t =>
    match tb_fill t with
    | TEmpty => undef OutOfBounds
    | _ =>
      (if o_osc (q_opts s) then
        if Nat.leb (q_ne s) (i_nc (q_ints s))
           && (negb (o_tau (q_opts s)) || Nat.leb (q_ne s) (i_tau (q_ints s)))
           && (negb (gr_on s) || Nat.leb (q_ne s) (i_gr (q_ints s)))
        then ret else undef OutOfBounds
      else match i_cache (q_ints s) with
        | Some (r, n) => if Nat.leb (q_nrhos s) r && Nat.leb (q_ne s) n then ret
                         else undef OutOfBounds
        | None => undef OutOfBounds end) ;;
      emit (EvTables t)
    end
  end).

Definition pre_derive (x : R) : M := read (fun s =>
  match q_track s, q_offset s, q_body s with
  | None, _, _ => undef NullPtr
  | _, None, _ => undef Uninit
  | Some t, Some off, ob =>
    modify (set_q_x (x - off)) ;;
    match ob with
    | None => undef NullPtr
    | Some b =>
      emit (EvQuery b x (x - off)) ;;
      when (o_src (q_opts s))
        (if Nat.eqb (i_flux (q_ints s)) (q_ne s) then ret else undef AssertFail) ;;
      when (o_int (q_opts s)) use_interactions
    end
  end).

(** SQuIDS::Evolve.  Without numerics "it only calls prederive and exits"
    (1271). *)
Definition evolve (dt : R) : M := read (fun s =>
  emit (EvEvolve dt (sq_h (q_sq s)) (sq_num (q_sq s)) (o_basis (q_opts s))) ;;
  if sq_num (q_sq s) then
    match e_solve e s dt with
    | (ts, ok, t', st) =>
      meach ts pre_derive ;;
      if ok then modify (fun s => put_sq_state st (put_sq_t (sq_t (q_sq s) + dt) s))
      else modify (fun s => put_sq_state st (put_sq_t t' s)) ;; throw
    end
  else
    modify (fun s => put_sq_t (sq_t (q_sq s) + dt) s) ;;
    read (fun s => pre_derive (sq_t (q_sq s)))).

Definition positivize : M :=
  emit EvPositivize ;; modify (fun s => put_sq_state (e_pos e s) s).

(** ** EvolveState — 1233-1305 *)

(** 1262-1290 *)
Definition evolve_const (len : R) : M :=
  modify (put_o_full true) ;; modify (put_sq_num false) ;; set_basis BMass ;;
  evolve len ;;
  modify (fun s => put_sq_state (e_const e s len) s).

(** 1292-1300 *)
Definition evolve_pos (t : track) : M := read (fun s =>
  let scale := o_scale (q_opts s) in
  if rlt 0 scale || rlt scale 0 then
    match to_int ((tr_fin t - tr_ini t) / scale) with
    | None => undef BadCast
    | Some n =>
      mfor (Z.to_nat n) 0 (fun _ => evolve scale ;; positivize) ;;
      evolve (tr_fin t - scale * IZR n) ;; positivize
    end
  else undef BadCast).

Definition evolve_state : M := read (fun s =>
  match q_body s with
  | None => throw
  | Some b =>
    if negb (f_body (q_flags s)) then throw else
    match q_track s with
    | None => throw
    | Some t =>
      if negb (f_track (q_flags s)) then throw
      else if negb (f_state (q_flags s)) then throw
      else if negb (f_energy (q_flags s)) then throw
      else
        when (o_int (q_opts s) && negb (i_done (q_ints s))) init_interactions ;;
        when (negb (o_osc (q_opts s)) && o_int (q_opts s))
          (modify (fun s => put_i_cache (Some (q_nrhos s, q_ne s)) s)) ;;
        when (rlt (tr_fin t) (tr_ini t))
          (modify (fun s => put_sq_h (-1 * sq_h (q_sq s)) s)) ;;
        if b_const b && negb (o_int (q_opts s)) && o_const (q_opts s)
        then evolve_const (tr_fin t - tr_ini t)
        else if o_pos (q_opts s) then evolve_pos t
        else evolve (tr_fin t - tr_ini t)
    end
  end).

(** ** Setting the state — 1307-1444 *)

(** what follows the checks in all three versions *)
Definition fill_state (v : nat -> nat -> nat -> R) (b : basis) : M := read (fun s =>
  match q_track s with
  | None => undef NullPtr
  | Some t =>
    modify (set_q_x (tr_ini t)) ;;
    modify (fun s => set_q_sq (Sqd (tr_ini t) (tr_ini t) (e_ini_h e (sq_h (q_sq s)))
                                   (e_ini_num e (sq_num (q_sq s))) []) s) ;;
    modify (set_q_offset (Some 0)) ;;
    set_projectors ;;
    ini_h0 ;;
    modify (fun s => put_sq_state (e_mk e s v b) s) ;;
    modify (put_f_state true)
  end).

Definition checks (l : list bool) : M := if existsb (fun b => b) l then throw else ret.

Definition init_state1 (n : nat) (v : nat -> R) (b : basis) : M := read (fun s =>
  checks [Nat.eqb n 0; negb (Nat.eqb n (q_numneu s)); basis_eqb b BInter;
          nt_eqb (q_nt s) Both; negb (Nat.eqb (q_ne s) 1);
          negb (f_track (q_flags s)) || negb (f_body (q_flags s)); negb (f_energy (q_flags s))] ;;
  fill_state (fun _ _ j => v j) b).

Definition init_state2 (n m : nat) (v : nat -> nat -> R) (b : basis) : M := read (fun s =>
  checks [Nat.eqb (n * m) 0; negb (Nat.eqb n (q_ne s)); negb (Nat.eqb m (q_numneu s));
          basis_eqb b BInter; nt_eqb (q_nt s) Both;
          negb (f_track (q_flags s)) || negb (f_body (q_flags s)); negb (f_energy (q_flags s))] ;;
  fill_state (fun i _ j => v i j) b).

Definition init_state3 (n r m : nat) (v : nat -> nat -> nat -> R) (b : basis) : M := read (fun s =>
  checks [Nat.eqb (n * r * m) 0; negb (Nat.eqb n (q_ne s)); negb (Nat.eqb r (q_nrhos s));
          negb (Nat.eqb m (q_numneu s)); basis_eqb b BInter; negb (nt_eqb (q_nt s) Both);
          negb (f_track (q_flags s)) || negb (f_body (q_flags s)); negb (f_energy (q_flags s))] ;;
  fill_state v b).

(** 1681-1686 *)
Definition get_hamiltonian : M := read (fun s =>
  if negb (f_energy (q_flags s)) then throw else pre_derive (sq_t (q_sq s))).

(** * The interface *)

Inductive call :=
| CBody (b : option body) | CTrack (t : option track) | CEnergy (v : R)
| CInit1 (n : nat) (v : nat -> R) (b : basis)
| CInit2 (n m : nat) (v : nat -> nat -> R) (b : basis)
| CInit3 (n r m : nat) (v : nat -> nat -> nat -> R) (b : basis)
| CEvolve | CHamiltonian | CInteractions
| CAngle (i j : nat) (v : R) | CPhase (i j : nat) (v : R) | CDm (i : nat) (v : R) | CDefaults
| CTau (b : bool) | CGlashow (b : bool) | COsc (b : bool) | CPos (b : bool) | CScale (v : R)
| CConst (b : bool) | CBasis (b : basis) | CXs (x : option xslib) | CSources (b : bool).

Definition exec (c : call) : M :=
  match c with
  | CBody b => set_body b | CTrack t => set_track t | CEnergy v => set_E v
  | CInit1 n v b => init_state1 n v b
  | CInit2 n m v b => init_state2 n m v b
  | CInit3 n r m v b => init_state3 n r m v b
  | CEvolve => evolve_state | CHamiltonian => get_hamiltonian
  | CInteractions => init_interactions
  | CAngle i j v => set_angle i j v | CPhase i j v => set_phase i j v
  | CDm i v => set_dm i v | CDefaults => set_defaults
  | CTau b => set_tau b | CGlashow b => set_gr b | COsc b => set_osc b
  | CPos b => set_pos b | CScale v => set_scale v
  | CConst b => set_const b | CBasis b => set_basis b | CXs x => set_xs x
  | CSources b => set_sources b
  end.

(** * Construction — nuSQuIDS.h:586-605, 77-257 *)

Definition zero_pars : pars := Pars (fun _ _ => 0) (fun _ _ => 0) (fun _ => 0).

Definition blank (t : nt) (numneu ne nrhos : nat) (iint : bool) (x : option xslib) (h scale : R) : nus :=
  Nus t numneu ne nrhos [] zero_pars (Sqd 0 0 h true [])
      (Opts iint true false false false false false false BInter scale)
      (Ints x None false 0 0 0 None 0) (Flags false false false false false)
      None None 0 None (fun _ _ => zero_pars) (Hsnap (fun _ => 0) true []).

(** 155-257 *)
Definition make_multi (E : list R) (numneu : nat) (t : nt) (iint : bool) (x : option xslib)
    : res * nus * list event :=
  let nrhos := if nt_eqb t Both then 2%nat else 1%nat in
  let s := blank t numneu (length E) nrhos iint x (e_h e) (300 * e_km e) in
  (if Nat.ltb (e_maxdim e) numneu then throw
   else if Nat.ltb numneu 3 then throw
   else if Nat.eqb (length E) 0 then undef AssertFail
   else
     modify (set_q_E E) ;; modify (put_f_energy true) ;; set_defaults ;;
     set_projectors ;; ini_h0) s.

(** 77-140; 117-121 flips the phases for good *)
Definition make_single (numneu : nat) (t : nt) : res * nus * list event :=
  let s := blank t numneu 1 1 false None (e_km e) 0 in
  (if nt_eqb t Both then throw
   else if Nat.ltb (e_maxdim e) numneu then throw
   else if Nat.ltb numneu 3 then throw
   else
     set_defaults ;; when (nt_eqb t NuBar) flip_phases ;;
     set_projectors ;; ini_h0 ;; modify (put_f_nus true)) s.

(** New objects; [true] for several energies. *)
Inductive made : bool -> nus -> Prop :=
| made_multi E numneu t iint x s ev :
    make_multi E numneu t iint x = (Done, s, ev) -> made true s
| made_single numneu t s ev :
    make_single numneu t = (Done, s, ev) -> made false s.

(** The calls made on an object so far (latest first), each with its outcome,
    its events and the object after it. *)
Definition entry : Type := call * res * list event * nus.
Inductive history (s0 : nus) : list entry -> nus -> Prop :=
| h_nil : history s0 [] s0
| h_call h s c r s' ev :
    history s0 h s -> exec c s = (r, s', ev) -> (forall u, r <> Undef u) ->
    history s0 ((c, r, ev, s') :: h) s'.

End Machine.

(** * Moving — 2904-2993

    The source is left unusable; what matters is the destination.  The members
    that are not mentioned get their default initialisers (constructor; there
    is none for time_offset) or keep the destination's value (assignment).
    current_external_flux, interaction_cache and the buffers are not
    mentioned either. *)
Definition move_ctor (o : nus) : nus :=
  Nus (q_nt o) (q_numneu o) (q_ne o) (q_nrhos o) (q_E o) (q_pars o) (q_sq o)
      (Opts (o_int (q_opts o)) (o_osc (q_opts o)) (o_tau (q_opts o)) (o_gr (q_opts o))
            (o_pos (q_opts o)) false false false (o_basis (q_opts o)) (o_scale (q_opts o)))
      (Ints (i_ncs (q_ints o)) (i_tabs (q_ints o)) false 0 0 0 None 0)
      (q_flags o) (q_body o) (q_track o) (q_x o) None (q_proj o) (q_h0 o).

Definition move_assign (d o : nus) : nus :=
  Nus (q_nt o) (q_numneu o) (q_ne o) (q_nrhos o) (q_E o) (q_pars o) (q_sq o)
      (Opts (o_int (q_opts o)) (o_osc (q_opts o)) (o_tau (q_opts o)) (o_gr (q_opts o))
            (o_pos (q_opts o)) (o_const (q_opts d)) (o_full (q_opts d)) (o_src (q_opts d))
            (o_basis (q_opts o)) (o_scale (q_opts o)))
      (Ints (i_ncs (q_ints o)) (i_tabs (q_ints o)) (i_done (q_ints d)) (i_nc (q_ints d))
            (i_tau (q_ints d)) (i_gr (q_ints d)) (i_cache (q_ints d)) (i_flux (q_ints d)))
      (q_flags o) (q_body o) (q_track o) (q_x o) (q_offset d) (q_proj o) (q_h0 o).
