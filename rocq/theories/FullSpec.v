(** What should be read from an object whose neutrinos oscillate, interact and
    are emitted: the equation of all nodes and kinds together, written with
    density matrices in the mass basis. *)
From Coq Require Import Reals List Arith Bool.
From Verif Require Import IntModel IntProofs StateModel StateProofs StateHistory CMatrix FlavorModel TransProps EndModel EndProps.
Import ListNotations.
Local Open Scope R_scope.

(** what does not change on the way: flavours, parameters, kinds, nodes, energies, whether neutrinos interact *)
Record object := Object {
  ob_n : nat; ob_th : nat -> nat -> R; ob_dl : nat -> nat -> R; ob_dm : nat -> R;
  ob_nt : nt; ob_nr : nat; ob_ne : nat; ob_E : nat -> R; ob_int : bool }.
(** one node of one kind *)
Definition at_node (w : object) (e r : nat) : settings := Settings (ob_n w) (ob_th w) (ob_dl w) (ob_dm w) (ob_nt w) r (ob_E w e).

(** a stage: the leg, the processes switched on, whether nucleons are taken alike, the cross sections *)
Record stage := Stage { sg_leg : leg; sg_tau : bool; sg_gr : bool; sg_src : bool; sg_one : bool; sg_tab : itables }.

Section Law.
Variable order : list (nat * nat).
Variable m : media.
Variable emission : body -> R -> nat -> nat -> nat -> R.

(** *** The medium at a position *)
(** kinds of nucleons: all alike, or protons and neutrons *)
Definition kinds (one : bool) : nat := if one then 1%nat else 2%nat.
(** how many per volume; [one]: never none, the finding of C35 *)
Definition nucleons (k : consts) (one : bool) (rho ye : R) (g : nat) : R :=
  if one then
    let v := 2 * (k_gcm3 k * rho) / (k_me k + k_mp k + k_mn k) in
    if Rlt_dec v (1 / 10 ^ 10) then k_nacm3 k * (1 / 10 ^ 10) else v
  else match g with O => ye | _ => 1 - ye end * (k_gcm3 k * rho) / ((k_me k + k_mp k) * ye + k_mn k * (1 - ye)).
Definition share (one : bool) (ye : R) (g : nat) : R := if one then 1 else match g with O => ye | _ => 1 - ye end.
Definition electrons (k : consts) (one : bool) (rho ye : R) : R := (if one then ye else 1) * nucleons k one rho ye 0.

(** *** Processes at position [p] of the body of a stage *)
Section At.
Variable w : object.
Variable g : stage.
Variable p : R.
Definition rho_ : R := m_rho m (l_body (sg_leg g)) p.
Definition ye_ : R := m_ye m (l_body (sg_leg g)) p.
Definition anti_kind (r : nat) : bool := match ob_nt w with Nu => false | NuBar => true | IntModel.Both => Nat.eqb r 1 end.
Definition width (i : nat) : R := ob_E w (S i) - ob_E w i.
Definition each (f : nat -> R) : R := IntProofs.rsum 0 (kinds (sg_one g)) f.

(** inverse lengths for neutral and charged current and for the resonance *)
Definition neutral_len (r f e : nat) : R := each (fun i => nucleons (m_k m) (sg_one g) rho_ ye_ i * t_sNC (sg_tab g) i r f e).
Definition charged_len (r f e : nat) : R := each (fun i => nucleons (m_k m) (sg_one g) rho_ ye_ i * t_sCC (sg_tab g) i r f e).
Definition resonant_len (e : nat) : R := electrons (m_k m) (sg_one g) rho_ ye_ * t_sGR (sg_tab g) e.
Definition loss (r f e : nat) : R :=
  neutral_len r f e + charged_len r f e + (if sg_gr g && anti_kind r && Nat.eqb f 0 then resonant_len e else 0).

(** what arrives at node [e] from higher ones; [flux r f e]: flux of kind [r], flavour [f] at node [e] *)
Variable flux : nat -> nat -> nat -> R.
Definition from_above (e : nat) (f : nat -> R) : R := IntProofs.rsum (S e) (ob_ne w) f.
Definition scattered (r f e : nat) : R := from_above e (fun e2 => each (fun i =>
  flux r f e2 * neutral_len r f e2 * width (e2 - 1) * share (sg_one g) ye_ i * t_dNC (sg_tab g) i r f e2 e)).
(** taus of node [e]; nodes at which no tau neutrino of either kind is left are passed over *)
Definition taus (r e : nat) : R := from_above e (fun e2 =>
  let amount := each (fun i =>
    flux r 2%nat e2 * charged_len r 2 e2 * width (e2 - 1) * share (sg_one g) ye_ i * t_dCC (sg_tab g) i r 2 e2 e * width (e - 1)) in
  if Rle_dec (flux 0%nat 2%nat e2) 0 then if Rle_dec (flux 1%nat 2%nat e2) 0 then 0 else amount else amount).
(** a tau gives back its own neutrino, and now and then a lighter one of the other kind *)
Definition decayed (r f e : nat) : R :=
  if Nat.eqb f 2 then from_above e (fun et => taus r et * t_tall (sg_tab g) r et e)
  else from_above e (fun et => taus (1 - r) et * t_tlep (sg_tab g) (1 - r) et e).
Definition resonant (r e : nat) : R := from_above e (fun e2 => flux r 0%nat e2 * resonant_len e2 * width (e2 - 1) * t_dGR (sg_tab g) e2 e).
Definition gain (r f e : nat) : R :=
  scattered r f e + (if sg_tau g then decayed r f e else 0) + (if sg_gr g && anti_kind r then resonant r e else 0).
End At.

(** *** The equation *)
Definition seen (w : object) (A : nat -> nat -> mat) (r f e : nat) : R := expect (ob_n w) (flavour order (at_node w e r) f) (A e r).
(** absorption takes half the loss from either side *)
Definition damping (w : object) (g : stage) (p : R) (e r : nat) : mat :=
  if ob_int w then msum 3 (fun f => mscale (1 / 2 * loss w g p r f e) (flavour order (at_node w e r) f)) else mzero.
Definition supply (w : object) (g : stage) (p : R) (flux : nat -> nat -> nat -> R) (e r : nat) : mat :=
  mplus (if ob_int w then msum 3 (fun f => mscale (gain w g p flux r f e) (flavour order (at_node w e r) f)) else mzero)
        (if sg_src g then msum (ob_n w) (fun f => mscale (emission (l_body (sg_leg g)) p e r f) (flavour order (at_node w e r) f)) else mzero).
Definition change (w : object) (g : stage) (x : R) (A : nat -> nat -> mat) (e r : nat) : mat :=
  rhs (ob_n w) (full (leg_world order m (at_node w e r) (sg_leg g)) x) (damping w g (x - l_shift (sg_leg g)) e r)
    (supply w g (x - l_shift (sg_leg g)) (seen w A) e r) (A e r).

Definition same (w : object) (A B : nat -> nat -> mat) : Prop := forall e r, (e < ob_ne w)%nat -> (r < ob_nr w)%nat -> meq (ob_n w) (A e r) (B e r).

(** the matrices of all nodes and kinds go from [A] to [B] along the stages, from clock [t] on *)
Inductive voyage (w : object) : R -> list stage -> (nat -> nat -> mat) -> (nat -> nat -> mat) -> Prop :=
| vo_nil t A B : same w A B -> voyage w t [] A B
| vo_leg t g gs A B (sol : R -> nat -> nat -> mat) : 0 <= l_len (sg_leg g) -> same w (sol t) A ->
    (forall x e r, t <= x <= t + l_len (sg_leg g) -> (e < ob_ne w)%nat -> (r < ob_nr w)%nat ->
       mderiv (ob_n w) (fun u => sol u e r) x (change w g x (sol x) e r)) ->
    voyage w (t + l_len (sg_leg g)) gs (sol (t + l_len (sg_leg g))) B -> voyage w t (g :: gs) A B.

(** [v] put in at clock [t0] in basis [b]; the content of [f] in the end, for flavours and masses *)
Definition put_in (w : object) (b : basis) (v : nat -> nat -> nat -> R) (e r : nat) : mat :=
  ini_state (ob_n w) b (flavour order (at_node w e r)) (v e r).
Definition outcome_is (w : object) (t0 : R) (b : basis) (v : nat -> nat -> nat -> R) (gs : list stage) (B : nat -> nat -> mat) : Prop :=
  voyage w t0 gs (put_in w b v) B.
End Law.

(** ** The journey told by the calls *)
(** what an object is, and a stage in the conditions it is in *)
Definition object_of (s : nus) : object :=
  Object (q_numneu s) (p_angle (q_pars s)) (p_phase (q_pars s)) (p_dm (q_pars s)) (q_nt s) (q_nrhos s) (q_ne s)
    (fun i => nth i (q_E s) 0) (o_int (q_opts s)).
Definition stage_of (tab : tabs -> list R -> nt -> itables) (s : nus) (l : leg) : stage :=
  Stage l (o_tau (q_opts s)) (o_gr (q_opts s)) (o_src (q_opts s))
    (match i_tabs (q_ints s) with Some t => Nat.eqb (tb_targets t) 1 | None => false end)
    (match i_tabs (q_ints s) with Some t => tab t (q_E s) (q_nt s) | None =>
       MkT (fun _ _ _ _ _ => 0) (fun _ _ _ _ _ => 0) (fun _ _ => 0) (fun _ _ _ _ => 0) (fun _ _ _ _ => 0) (fun _ => 0) (fun _ _ _ => 0) (fun _ _ _ => 0) end).

(** the journey since the last state was set; each stage in the conditions the object was in after it *)
Inductive passed (tab : tabs -> list R -> nt -> itables) : list entry -> R -> StateModel.basis -> (nat -> nat -> nat -> R) -> list stage -> Prop :=
| ps_init c ev s h t b v : is_init c = true -> given c = (b, v) -> last_track h = Some t ->
    passed tab ((c, Done, ev, s) :: h) (tr_ini t) b v []
| ps_evolve ev s h t0 b v gs bd t c1 : passed tab h t0 b v gs -> last_body h = Some (Some bd) -> anchor h = Some (t, c1) ->
    tr_ini t <= tr_fin t ->
    passed tab ((CEvolve, Done, ev, s) :: h) t0 b v (gs ++ [stage_of tab s (Leg bd (c1 - tr_ini t) (tr_fin t - tr_ini t))])
| ps_other c r ev s h t0 b v gs : passed tab h t0 b v gs -> harmless c = true \/ (is_init c = true /\ r = Threw) ->
    passed tab ((c, r, ev, s) :: h) t0 b v gs.

(** neither shortcut, positivity enforcement nor no-oscillation mode were ever asked for *)
Definition oscillating (h : list entry) : Prop := forall en, In en h ->
  match fst (fst (fst en)) with CConst true | CPos true | COsc false => False | _ => True end.
