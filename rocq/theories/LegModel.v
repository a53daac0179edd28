(** A way made of legs: Set_Body, Set_Track and EvolveState again and again, the
    state never set anew — nuSQuIDS.cpp:278-279, 1196-1209, 1233-1305.

    A leg is a body on a track: [l_at x] is what the body shows at position [x]
    (densities, composition, sources), between the ends of the track.  Of SQuIDS
    we take that Evolve(dt) moves the clock by [dt] and that the state solves the
    equation between (no positivity steps and no shortcut: C47, C61). *)
From Coq Require Import Reals List Arith Bool.
From Verif Require Import CMatrix FlavorModel.
From Verif Require Import IntModel SuperModel.
Import ListNotations.
Local Open Scope R_scope.

Section Legs.
Variable A : Type.
Record leg := Leg { l_ini : R; l_fin : R; l_at : R -> A }.

(** Set_Track, 1201-1209: time_offset when the clock shows [t] *)
Definition offset (t : R) (l : leg) : R := t - l_ini l.
(** PreDerive, 278-279: what is met when the clock shows [x], the leg begun at [t] *)
Definition seen (t : R) (l : leg) (x : R) : A := l_at l (x - offset t l).
(** EvolveState, 1301: the clock afterwards *)
Definition after (t : R) (l : leg) : R := t + (l_fin l - l_ini l).

Variable n : nat.
Variable mat_of : vec -> mat.
Variable dot : vec -> vec -> R.
Variables inter osc : bool.
Variable tb : itables.
Variables rne ne nr : nat.
Variable conf : A -> iconf.                          (* the medium in the equation *)
Variable ham : A -> R -> nat -> nat -> mat.          (* Hamiltonian: medium, clock; node, kind *)
Variable proj : R -> nat -> nat -> nat -> vec.       (* clock; kind, flavour, node *)

Definition state := nat -> nat -> vec.
Definition same (x y : state) : Prop := forall e r, (e < ne)%nat -> (r < nr)%nat -> meq n (mat_of (x e r)) (mat_of (y e r)).

(** [st] solves the equation in the medium [m] from clock [t0] to [t1] *)
Definition obeys (m : R -> A) (t0 t1 : R) (st : R -> state) : Prop := exists old fold, forall s e r,
  t0 <= s <= t1 -> (e < ne)%nat -> (r < nr)%nat ->
  solves_at n mat_of dot inter osc tb rne (ham (m s) s e r) (proj s) (conf (m s)) (old s) (fold s) st s e r.

(** From clock [t] and state [x] over the legs to clock [t'] and state [y]. *)
Inductive journey : R -> state -> list leg -> R -> state -> Prop :=
| j_end t x : journey t x [] t x
| j_leg t x l ls st t' y : obeys (seen t l) t (after t l) st -> same (st t) x ->
    journey (after t l) (st (after t l)) ls t' y -> journey t x (l :: ls) t' y.

(** A leg cut at the positions [xs], one after the other. *)
Fixpoint cut (l : leg) (xs : list R) : list leg :=
  match xs with
  | [] => [l]
  | x :: xs' => Leg (l_ini l) x (l_at l) :: cut (Leg x (l_fin l) (l_at l)) xs'
  end.
End Legs.
Arguments Leg {A}.
Arguments l_ini {A}.
Arguments l_fin {A}.
Arguments l_at {A}.
Arguments offset {A}.
Arguments seen {A}.
Arguments after {A}.
Arguments cut {A}.
Arguments obeys {A}.
Arguments journey {A}.
