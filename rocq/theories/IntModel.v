(** Matter potential, target densities, interaction lengths, regeneration
    terms and the cache of interaction vectors, after src/nuSQuIDS.cpp.

    Numbers are reals (rounding, overflow and NaN are not modelled).  Arrays
    are functions of their indices; an [SU_vector] is the function giving its
    components.  Every accumulation of the source is kept as the loop it is,
    in the same order, over an accumulator array that is updated one entry at a
    time.  The scalar product of SQuIDS (projector times state) is a parameter
    because that library is not part of the repository. *)
From Coq Require Import Reals List ZArith Bool Arith.
From Verif Require Import Err TauModel XsModel.
Import ListNotations.
Open Scope R_scope.

(** * Loops *)

(** [for (i = lo; i < hi; i++) body], the state threaded through. *)
Fixpoint for_ {S : Type} (k i : nat) (body : nat -> S -> S) (s : S) : S :=
  match k with
  | O => s
  | Datatypes.S k' => for_ k' (Datatypes.S i) body (body i s)
  end.

Definition loop {S : Type} (lo hi : nat) (body : nat -> S -> S) (s : S) : S :=
  for_ (hi - lo)%nat lo body s.

(** * Arrays *)

Definition arr1 := nat -> R.
Definition arr2 := nat -> nat -> R.
Definition arr3 := nat -> nat -> nat -> R.

(** [a[i] += v], [a[i][j] += v], [a[i][j][k] += v]. *)
Definition add1 (a : arr1) (i : nat) (v : R) : arr1 :=
  fun i' => if Nat.eqb i' i then a i' + v else a i'.
Definition add2 (a : arr2) (i j : nat) (v : R) : arr2 :=
  fun i' j' => if Nat.eqb i' i && Nat.eqb j' j then a i' j' + v else a i' j'.
Definition add3 (a : arr3) (i j k : nat) (v : R) : arr3 :=
  fun i' j' k' =>
    if Nat.eqb i' i && Nat.eqb j' j && Nat.eqb k' k
    then a i' j' k' + v else a i' j' k'.

(** [std::fill(a.begin(), a.end(), 0.)], and freshly constructed arrays
    (ALIGNED_LOCAL_BUFFER fills with 0, marray value-initialises). *)
Definition zero1 : arr1 := fun _ => 0.
Definition zero2 : arr2 := fun _ _ => 0.
Definition zero3 : arr3 := fun _ _ _ => 0.

(** Components of an [SU_vector]. *)
Definition vec := nat -> R.
Definition vzero : vec := fun _ => 0.
Definition vadd (a b : vec) : vec := fun c => a c + b c.
Definition vscale (r : R) (a : vec) : vec := fun c => r * a c.

(** [cache[i][j] += v] for an array of vectors. *)
Definition addv (a : nat -> nat -> vec) (i j : nat) (v : vec) : nat -> nat -> vec :=
  fun i' j' => if Nat.eqb i' i && Nat.eqb j' j then vadd (a i' j') v else a i' j'.

(** * Padding — include/nuSQuIDS/nuSQuIDS.h:125-134 *)

(** [n & ~3] on [size_t], which is 64 bits wide. *)
Definition two64 : Z := (2 ^ 64)%Z.

Definition round_up_to_aligned (n : Z) : Z :=
  ((Z.land n (two64 - 1 - 3)
    + (if Z.eqb (Z.land n 3) 0 then 0 else 4)) mod two64)%Z.

(** * Targets — src/nuSQuIDS.cpp:441-489 *)

(** The SQuIDS constants used: electron, proton and neutron mass,
    [gr*pow(cm,-3)], [Na*pow(cm,-3)], and the product HI_constants
    (src/nuSQuIDS.cpp:134, 251). *)
Record consts := MkConsts {
  k_me : R; k_mp : R; k_mn : R; k_gcm3 : R; k_nacm3 : R; k_HI : R }.

(** src/nuSQuIDS.cpp:441-446 GetTargetNumberFractions *)
Definition target_fractions (ntargets : nat) (ye : R) : list R :=
  if Nat.eqb ntargets 1 then [1] else [ye; 1 - ye].

(** src/nuSQuIDS.cpp:448-489 GetTargetNumberDensities; [isoscalar] is the test
    on [targets] of line 453. *)
Definition target_densities (k : consts) (isoscalar : bool) (rho ye : R) : list R :=
  let density := k_gcm3 k * rho in
  if isoscalar then
    let num_nuc := density * 2 / (k_me k + k_mp k + k_mn k) in
    [if rlt num_nuc (1 / 10 ^ 10) then k_nacm3 k * (1 / 10 ^ 10) else num_nuc]
  else if Req_EM_T ye 0 then [0; density / k_mn k]
  else
    let np := density / (k_me k + k_mp k + k_mn k * ((1 - ye) / ye)) in
    let nn := (1 - ye) * np / ye in
    [np; nn].

(** * Matter potential — src/nuSQuIDS.cpp:334-361 *)

Inductive nt := Nu | NuBar | Both.   (* NeutrinoType, nuSQuIDS.h:61-66 *)
Definition nt_eqb (a b : nt) : bool :=
  match a, b with Nu, Nu => true | NuBar, NuBar => true | Both, Both => true
                | _, _ => false end.

(** The test of line 343, also used for the Glashow terms (line 405). *)
Definition is_anti (t : nt) (irho : nat) : bool :=
  (nt_eqb t Both && Nat.eqb irho 1) || nt_eqb t NuBar.

(** Lines 335-346: the two coefficients. *)
Definition hi_coeffs (k : consts) (t : nt) (irho : nat) (rho ye : R) : R * R :=
  let cc := k_HI k * rho * ye in
  let nc := if rlt ye (1 / 10 ^ 10) then k_HI k * rho
            else cc * (- (1 / 2) * (1 - ye) / ye) in
  if is_anti t irho then (cc * -1, nc * -1) else (cc, nc).

(** Lines 348-361.  [p flv] is evol_b1_proj[irho][flv][ie], [h0] is
    H0_array[ie]. *)
Definition HI (k : consts) (t : nt) (irho : nat) (rho ye : R)
    (mass_basis : bool) (p : nat -> vec) (h0 : vec) : vec :=
  let '(cc, nc) := hi_coeffs k t irho rho ye in
  let potential := vscale (cc + nc) (p 0%nat) in
  let potential := vadd potential (vscale nc (p 1%nat)) in
  let potential := vadd potential (vscale nc (p 2%nat)) in
  if mass_basis then vadd potential h0 else potential.

(** src/nuSQuIDS.cpp:1681-1686 GetHamiltonian, after PreDerive: the vacuum part
    plus HI.  [h0x] is H0(E,irho). *)
Definition get_hamiltonian (h0x hi : vec) : vec := vadd h0x hi.

(** * Interaction state *)

(** The tables of InteractionStructure (nuSQuIDS.h:138-160): index order as in
    the source. *)
Record itables := MkT {
  t_dNC : nat -> nat -> nat -> nat -> nat -> R;   (* trg rho flv e2 e1 *)
  t_dCC : nat -> nat -> nat -> nat -> nat -> R;
  t_dGR : nat -> nat -> R;                        (* e2 e1 *)
  t_sCC : nat -> nat -> nat -> nat -> R;          (* trg rho flv e *)
  t_sNC : nat -> nat -> nat -> nat -> R;
  t_sGR : nat -> R;
  t_tall : nat -> nat -> nat -> R;                (* rho et e1 *)
  t_tlep : nat -> nat -> nat -> R }.

(** What the update reads besides the tables: shape, flags, composition,
    energy steps, sources. *)
Record iconf := MkC {
  c_nt : nt; c_nrhos : nat; c_ne : nat; c_numneu : nat;
  c_tau : bool; c_gr : bool; c_src : bool;
  c_dens : list R; c_frac : list R; c_ye : R;
  c_delE : nat -> R;
  c_ext : nat -> nat -> nat -> R }.               (* e rho flv *)

(** LinAcc, src/nuSQuIDS.cpp:602-613. *)
Definition lin_acc (iteration : nat) (target contribution : R) : R :=
  match iteration with O => contribution | _ => target + contribution end.

(** src/nuSQuIDS.cpp:616-628, one entry (the loops over rho, flv and e1 write
    different entries).  [old] is what the buffer held before. *)
Definition invlen (sigma : nat -> R) (dens : list R) (old : R) : R :=
  loop 0 (length dens)
    (fun trg acc => lin_acc trg acc (sigma trg * nth trg dens 0)) old.

(** The contents of int_state after lines 586-653. *)
Record istate := MkS { s_NC : arr3; s_CC : arr3; s_INT : arr3; s_GR : arr1 }.

Definition update_lengths (c : iconf) (t : itables) (old : istate) : istate :=
  let nc := fun r f e => invlen (fun g => t_sNC t g r f e) (c_dens c) (s_NC old r f e) in
  let cc := fun r f e => invlen (fun g => t_sCC t g r f e) (c_dens c) (s_CC old r f e) in
  let int0 := fun r f e => nc r f e + cc r f e in
  (* 630-653 *)
  if c_gr c && (nt_eqb (c_nt c) Both || nt_eqb (c_nt c) NuBar) then
    let rho := if nt_eqb (c_nt c) Both then 1%nat else 0%nat in
    let num_e := if Nat.eqb (length (c_dens c)) 1
                 then nth 0 (c_dens c) 0 * c_ye c else nth 0 (c_dens c) 0 in
    let '(gr, int1) :=
      loop 0 (c_ne c)
        (fun e1 '(gr, i) =>
           let g := t_sGR t e1 * num_e in
           ((fun e => if Nat.eqb e e1 then g else gr e), add3 i rho 0 e1 g))
        (s_GR old, int0) in
    MkS nc cc int1 gr
  else MkS nc cc int0 (s_GR old).

Section Update.

  (** SQuIDS scalar product. *)
  Variable dot : vec -> vec -> R.
  (** evol_b1_proj[rho][flv][e] and estate[e].rho[rho] *)
  Variable proj : nat -> nat -> nat -> vec.
  Variable st : nat -> nat -> vec.
  Variable c : iconf.
  Variable t : itables.
  Variable s : istate.

  Let ne := c_ne c.
  Let nT := length (c_dens c).
  Let frac := fun g => nth g (c_frac c) 0.
  Let dE := c_delE c.

  (** ** Without oscillations — src/nuSQuIDS.cpp:675-855 *)

  (** 680-707 *)
  Definition nc_noosc (ff : arr3) : arr3 :=
    loop 0 (c_nrhos c) (fun rho ff =>
    loop 0 3 (fun alpha ff =>
      let projector := proj rho alpha 0%nat in
      loop 1 ne (fun e2 ff =>
        let flux := dot projector (st e2 rho) in
        let flux := flux * (s_NC s rho alpha e2 * dE (e2 - 1)%nat) in
        loop 0 nT (fun trg ff =>
          let tFrac := frac trg in
          let flux_t := tFrac * flux in
          loop 0 e2 (fun e1 ff =>
            add3 ff rho alpha e1 (flux_t * t_dNC t trg rho alpha e2 e1)) ff) ff) ff) ff) ff.

  (** 714-744: the taus produced, (tau, anti-tau) *)
  Definition taus_noosc : arr1 * arr1 :=
    let projector_tau := proj 0%nat 2%nat 0%nat in
    let projector_tau_bar := proj 1%nat 2%nat 0%nat in
    loop 1 ne (fun en '(td, tbd) =>
      let nu_tau_flux := dot projector_tau (st en 0%nat) in
      let nu_tau_bar_flux := dot projector_tau_bar (st en 1%nat) in
      if rle nu_tau_flux 0 && rle nu_tau_bar_flux 0 then (td, tbd) else
      let dEn := dE (en - 1)%nat in
      let icc := s_CC s 0%nat 2%nat en in
      let iccb := s_CC s 1%nat 2%nat en in
      loop 0 nT (fun trg '(td, tbd) =>
        let f := nu_tau_flux * icc * dEn * frac trg in
        let fb := nu_tau_bar_flux * iccb * dEn * frac trg in
        loop 1 en (fun et '(td, tbd) =>
          let dEt := dE (et - 1)%nat in
          (add1 td et (f * t_dCC t trg 0 2 en et * dEt),
           add1 tbd et (fb * t_dCC t trg 1 2 en et * dEt))) (td, tbd)) (td, tbd))
      (zero1, zero1).

  (** 746-797: their decays; the array runs to [rounded_ne] in the last loop
      (788), [rne] below. *)
  Definition decays_noosc (rne : nat) (ff : arr3) : arr3 :=
    let '(td, tbd) := taus_noosc in
    let '(lep, lepb, ff) :=
      loop 1 ne (fun et '(lep, lepb, ff) =>
      loop 0 et (fun e1 '(lep, lepb, ff) =>
        let lep := add1 lep e1 (tbd et * t_tlep t 1 et e1) in
        let lepb := add1 lepb e1 (td et * t_tlep t 0 et e1) in
        let ff := add3 ff 0 2 e1 (td et * t_tall t 0 et e1) in
        let ff := add3 ff 1 2 e1 (tbd et * t_tall t 1 et e1) in
        (lep, lepb, ff)) (lep, lepb, ff)) (zero1, zero1, ff) in
    loop 0 rne (fun e1 ff =>
      let l := lep e1 in
      let lb := lepb e1 in
      let ff := add3 ff 0 0 e1 l in
      let ff := add3 ff 1 0 e1 lb in
      let ff := add3 ff 0 1 e1 l in
      let ff := add3 ff 1 1 e1 lb in
      ff) ff.

  (** 800-802 and 810-816 *)
  Definition glashow_noosc (ff : arr3) : arr3 :=
    let rho := if nt_eqb (c_nt c) Both then 1%nat else 0%nat in
    let projector_e := proj rho 0%nat 0%nat in
    let gr :=
      loop 1 ne (fun e2 gr =>
        let flux := dot projector_e (st e2 rho) in
        let f := flux * s_GR s e2 * dE (e2 - 1)%nat in
        loop 0 e2 (fun e1 gr => add1 gr e1 (f * t_dGR t e2 e1)) gr) zero1 in
    loop 0 ne (fun e1 ff =>
      let g := gr e1 in
      let ff := add3 ff rho 0 e1 g in
      let ff := add3 ff rho 1 e1 g in
      let ff := add3 ff rho 2 e1 g in
      ff) ff.

  Definition glashow_on : bool :=
    c_gr c && (nt_eqb (c_nt c) Both || nt_eqb (c_nt c) NuBar).

  Definition factors_noosc (rne : nat) : arr3 :=
    let ff := nc_noosc zero3 in
    let ff := if c_tau c then decays_noosc rne ff else ff in
    if glashow_on then glashow_noosc ff else ff.

  (** 820-853: the cache, zeroed and refilled.  The loop adding the sources sits
      inside the loop over rho (841-851). *)
  Definition cache_noosc (rne : nat) : nat -> nat -> vec :=
    let ff := factors_noosc rne in
    loop 0 (c_nrhos c) (fun rho ca =>
      let pe := proj rho 0%nat 0%nat in
      let pmu := proj rho 1%nat 0%nat in
      let ptau := proj rho 2%nat 0%nat in
      let ca := loop 0 ne (fun e1 ca =>
        let ca := addv ca rho e1 (vscale (ff rho 0%nat e1) pe) in
        let ca := addv ca rho e1 (vscale (ff rho 1%nat e1) pmu) in
        let ca := addv ca rho e1 (vscale (ff rho 2%nat e1) ptau) in
        ca) ca in
      if c_src c then
        loop 0 (c_nrhos c) (fun rho ca =>
        loop 0 ne (fun e1 ca =>
        loop 0 (c_numneu c) (fun i ca =>
          addv ca rho e1 (vscale (c_ext c e1 rho i) (proj rho i e1))) ca) ca) ca
      else ca) (fun _ _ => vzero).

  (** ** With oscillations — src/nuSQuIDS.cpp:856-963 *)

  (** nc_factors, tau_hadlep_decays, tau_lep_decays, gr_factors *)
  Record ifactors := MkF { f_nc : arr3; f_had : arr2; f_lep : arr2; f_gr : arr1 }.

  (** 859-886 *)
  Definition nc_osc : arr3 :=
    loop 0 (c_nrhos c) (fun rho nc =>
    loop 0 3 (fun alpha nc =>
      loop 1 ne (fun e2 nc =>
        let flux := dot (proj rho alpha e2) (st e2 rho) in
        let flux := flux * (s_NC s rho alpha e2 * dE (e2 - 1)%nat) in
        loop 0 nT (fun trg nc =>
          let tFrac := frac trg in
          let flux_t := tFrac * flux in
          loop 0 e2 (fun e1 nc =>
            add3 nc rho alpha e1 (flux_t * t_dNC t trg rho alpha e2 e1)) nc) nc) nc) nc)
      zero3.

  (** 893-920 *)
  Definition taus_osc : arr1 * arr1 :=
    loop 1 ne (fun en '(td, tbd) =>
      let nu_tau_flux := dot (proj 0%nat 2%nat en) (st en 0%nat) in
      let nu_tau_bar_flux := dot (proj 1%nat 2%nat en) (st en 1%nat) in
      if rle nu_tau_flux 0 && rle nu_tau_bar_flux 0 then (td, tbd) else
      let dEn := dE (en - 1)%nat in
      let icc := s_CC s 0%nat 2%nat en in
      let iccb := s_CC s 1%nat 2%nat en in
      loop 0 nT (fun trg '(td, tbd) =>
        let f := nu_tau_flux * icc * dEn * frac trg in
        let fb := nu_tau_bar_flux * iccb * dEn * frac trg in
        loop 1 en (fun et '(td, tbd) =>
          let dEt := dE (et - 1)%nat in
          (add1 td et (f * t_dCC t trg 0 2 en et * dEt),
           add1 tbd et (fb * t_dCC t trg 1 2 en et * dEt))) (td, tbd)) (td, tbd))
      (zero1, zero1).

  (** 924-949: (tau_hadlep_decays, tau_lep_decays) *)
  Definition decays_osc : arr2 * arr2 :=
    let '(td, tbd) := taus_osc in
    loop 1 ne (fun et '(had, lep) =>
      let td_et := td et in
      let tbd_et := tbd et in
      loop 0 et (fun e1 '(had, lep) =>
        let had := add2 had 0 e1 (td_et * t_tall t 0 et e1) in
        let lep := add2 lep 0 e1 (tbd_et * t_tlep t 1 et e1) in
        let had := add2 had 1 e1 (tbd_et * t_tall t 1 et e1) in
        let lep := add2 lep 1 e1 (td_et * t_tlep t 0 et e1) in
        (had, lep)) (had, lep)) (zero2, zero2).

  (** 952-963 *)
  Definition gr_osc : arr1 :=
    let rho := if nt_eqb (c_nt c) Both then 1%nat else 0%nat in
    loop 1 ne (fun e2 gr =>
      let flux := dot (proj rho 0%nat e2) (st e2 rho) in
      let f := flux * s_GR s e2 * dE (e2 - 1)%nat in
      loop 0 e2 (fun e1 gr => add1 gr e1 (f * t_dGR t e2 e1)) gr) zero1.

  (** Buffers of a switched-off process keep what they held. *)
  Definition update_osc (old : ifactors) : ifactors :=
    let '(had, lep) := if c_tau c then decays_osc else (f_had old, f_lep old) in
    MkF nc_osc had lep (if glashow_on then gr_osc else f_gr old).

  (** ** InteractionsRho — src/nuSQuIDS.cpp:374-431 *)

  (** 378-388: interactions off *)
  Definition sources_only (rho e1 : nat) : vec :=
    loop 1 (c_numneu c)
      (fun i v => vadd v (vscale (c_ext c e1 rho i) (proj rho i e1)))
      (vscale (c_ext c e1 rho 0%nat) (proj rho 0%nat e1)).

  (** 390-430: interactions on, with oscillations *)
  Definition interactions_osc (f : ifactors) (rho e1 : nat) : vec :=
    let fe := f_nc f rho 0%nat e1 in
    let fmu := f_nc f rho 1%nat e1 in
    let ftau := f_nc f rho 2%nat e1 in
    let '(fe, fmu, ftau) :=
      if c_tau c
      then (fe + f_lep f rho e1, fmu + f_lep f rho e1, ftau + f_had f rho e1)
      else (fe, fmu, ftau) in
    let '(fe, fmu, ftau) :=
      if c_gr c && is_anti (c_nt c) rho
      then (fe + f_gr f e1, fmu + f_gr f e1, ftau + f_gr f e1)
      else (fe, fmu, ftau) in
    let '(fe, fmu, ftau) :=
      if c_src c
      then (fe + c_ext c e1 rho 0%nat, fmu + c_ext c e1 rho 1%nat,
            ftau + c_ext c e1 rho 2%nat)
      else (fe, fmu, ftau) in
    let v := vscale fe (proj rho 0%nat e1) in
    let v := vadd v (vscale fmu (proj rho 1%nat e1)) in
    let v := vadd v (vscale ftau (proj rho 2%nat e1)) in
    if c_src c then
      loop 3 (c_numneu c)
        (fun i v => vadd v (vscale (c_ext c e1 rho i) (proj rho i e1))) v
    else v.

  (** 363-372 GammaRho with interactions on *)
  Definition gamma_rho (ei rho : nat) : vec :=
    let v := vscale (1 / 2 * s_INT s rho 0%nat ei) (proj rho 0%nat ei) in
    let v := vadd v (vscale (1 / 2 * s_INT s rho 1%nat ei) (proj rho 1%nat ei)) in
    vadd v (vscale (1 / 2 * s_INT s rho 2%nat ei) (proj rho 2%nat ei)).

  (** 374-431 *)
  Definition interactions_rho (iinteraction ioscillations : bool)
      (ca : nat -> nat -> vec) (f : ifactors) (rho e1 : nat) : vec :=
    if iinteraction && negb ioscillations then ca rho e1
    else if negb iinteraction && negb (c_src c) then vzero
    else if negb iinteraction then sources_only rho e1
    else interactions_osc f rho e1.

End Update.

(** * The cache of vectors — src/nuSQuIDS.cpp:491-583 *)

(** Addresses and sizes in bytes are integers.  [alignof(double)] is 8. *)
Open Scope Z_scope.

(** 508-551 *)
Definition cache_headroom (numneu : Z) : Z :=
  if 1 <? numneu then (32 - 8) / 8 else 0.

Definition cache_padding (numneu : Z) : Z :=
  let vector_size := numneu * numneu in
  if 1 <? numneu then
    if Z.eqb (vector_size mod 2) 1 then
      let overhang := ((vector_size - 1) * 8) mod 32 in
      let gap := 32 - overhang in
      if Z.eqb gap 8 then 0
      else if gap <? 8 then (32 - (8 - gap)) / 8
      else (gap - 8) / 8
    else
      let overhang := (vector_size * 8) mod 32 in
      if Z.eqb overhang 0 then 0 else (32 - overhang) / 8
  else 0.

(** 555 (in doubles) *)
Definition cache_size (numneu nvectors : Z) : Z :=
  cache_headroom numneu + nvectors * (numneu * numneu)
  + (nvectors - 1) * cache_padding numneu.

(** 560-569 *)
Definition cache_start (numneu base : Z) : Z :=
  let vector_size := numneu * numneu in
  if 1 <? numneu then
    if Z.eqb (vector_size mod 2) 1 then
      if Z.eqb ((base + 8) mod 32) 0 then base
      else base + 8 * ((32 - (base + 8) mod 32) / 8)
    else if Z.eqb (base mod 32) 0 then base
         else base + 8 * ((32 - base mod 32) / 8)
  else base.

(** 573-577: true when the logic_error is thrown *)
Definition cache_misaligned (numneu ptr : Z) : bool :=
  (1 <? numneu) &&
  let alignment := ptr mod 32 in
  ((Z.eqb (numneu mod 2) 1 && negb (Z.eqb alignment (32 - 8)))
   || (Z.eqb (numneu mod 2) 0 && negb (Z.eqb alignment 0))).

(** 571-582: the address handed to each vector, in order.  The two loops over
    rho and energy run through [nvectors] entries one after the other. *)
Fixpoint cache_assign (numneu ptr : Z) (nvectors : nat) : outcome (list Z) :=
  match nvectors with
  | O => Ok []
  | S n =>
    if cache_misaligned numneu ptr then Throw LogicError
    else
      obind (cache_assign numneu
               (ptr + 8 * (numneu * numneu + cache_padding numneu)) n)
        (fun rest => Ok (ptr :: rest))
  end.

Definition setup_cache (numneu base : Z) (nvectors : nat) : outcome (list Z) :=
  cache_assign numneu (cache_start numneu base) nvectors.

(** The object after SetUpInteractionCache: what it was built for, the size of
    its block (doubles) and the addresses of the vectors.  Lines 492-496 keep
    an existing block when the numbers of types and nodes are the same. *)
Record cache_obj := MkCache {
  co_nrhos : nat; co_ne : nat; co_numneu : Z; co_base : Z; co_size : Z; co_addrs : list Z }.

Definition setup_interaction_cache (old : option cache_obj) (base : Z)
    (nrhos ne : nat) (numneu : Z) : outcome cache_obj :=
  let fresh :=
    obind (setup_cache numneu base (nrhos * ne)) (fun l =>
      Ok (MkCache nrhos ne numneu base (cache_size numneu (Z.of_nat (nrhos * ne))) l)) in
  match old with
  | Some o => if Nat.eqb (co_nrhos o) nrhos && Nat.eqb (co_ne o) ne then Ok o else fresh
  | None => fresh
  end.
