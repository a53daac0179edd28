(** The correction of negative flavour contents: nuSQUIDS::PositivizeFlavors
    (src/nuSQuIDS.cpp:1211-1223), with the projectors it uses
    (PreDerive 278-297, EvolveProjectors 299-327).

    As in FlavorModel.v SU_vectors are hermitian matrices.  Of SQuIDS we take:
    outside an evolution estate and state are the same matrices, and
    LowPassFilter multiplies each frequency by one below the ramp, by zero
    above the cutoff and linearly in between (nuSQuIDS.h:496-499, 817-823). *)
From Coq Require Import Reals List Arith Bool.
From Verif Require Import CMatrix FlavorModel.
Open Scope R_scope.

(** factor of a frequency; no filter if the cutoff is not positive (303) *)
Definition low_pass (cutoff scale d : R) : R :=
  if Rlt_dec 0 cutoff then
    if Rle_dec cutoff (Rabs d) then 0
    else if Rle_dec (Rabs d) (cutoff - scale) then 1 else (cutoff - Rabs d) / scale
  else 1.
(** Evolve with the filtered buffer *)
Definition evolve_filtered (cutoff scale : R) (H : mat) (t : R) (A : mat) : mat := fun a b =>
  cmult (rtc (low_pass cutoff scale (re (H a a) - re (H b b)))) (evolve H t A a b).

(** 285-287: evol_b1_proj of one node after PreDerive at clock [tp]; [old] what it was before *)
Definition stored (b : basis) (osc : bool) (cutoff scale : R) (H : mat) (tp t0 : R) (P old : nat -> mat) (k : nat) : mat :=
  match b with
  | BMass => old k
  | _ => if osc then evolve_filtered cutoff scale H (tp - t0) (P k) else old k
  end.

(** estate[e].rho[r] *)
Definition states := nat -> nat -> mat.
Definition upd (S : states) (e r : nat) (M : mat) : states := fun e' r' =>
  if Nat.eqb e' e && Nat.eqb r' r then M else S e' r'.

(** for(i = lo; i < lo + m; i++) *)
Fixpoint repeat_for {X : Type} (m lo : nat) (f : nat -> X -> X) (x : X) : X :=
  match m with O => x | Datatypes.S m' => repeat_for m' (Datatypes.S lo) f (f lo x) end.

(** 1211-1223; [read r e M k] is EvalFlavorAtNode, [Pt r k e] is evol_b1_proj *)
Definition positivize (nrhos ne n : nat) (read : nat -> nat -> mat -> nat -> R) (Pt : nat -> nat -> nat -> mat) (S : states) : states :=
  repeat_for nrhos 0 (fun r => repeat_for ne 0 (fun e => repeat_for n 0 (fun k S =>
    let q := read r e (S e r) k in
    if Rlt_dec q 0 then upd S e r (mplus (S e r) (mscale (- q) (Pt r k e))) else S))) S.

(** the object's own: projectors [P r], H0 of the nodes, clock [t] since [t0] *)
Definition read_object (n : nat) (b : basis) (H : nat -> mat) (t t0 : R) (P : nat -> nat -> mat) (r e : nat) (M : mat) (k : nat) : R :=
  eval_flavor n b (H e) t t0 (P r) M k.
Definition correct (nrhos ne n : nat) (b : basis) (osc : bool) (cutoff scale : R) (H : nat -> mat) (tp t t0 : R)
    (P : nat -> nat -> mat) (old : nat -> nat -> nat -> mat) (S : states) : states :=
  positivize nrhos ne n (read_object n b H t t0 P)
    (fun r k e => stored b osc cutoff scale (H e) tp t0 (P r) (old r e) k) S.
