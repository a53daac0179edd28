From Coq Require Import List Arith ZArith Bool Reals Lra Lia.
From Verif Require Import Err AkimaModel AkimaProofs PiecewiseProofs BicubicModel.
Import ListNotations.
Local Open Scope R_scope.

(** *** Which cell *)
Lemma upper_pt_spec xc k : forall i t, (forall a b, (i <= a)%nat -> (a < b)%nat -> (b < i + k)%nat -> xc a < xc b) ->
  let u := upper_pt xc i k t in
  (u <= k)%nat /\ (forall j, (j < u)%nat -> xc (i + j)%nat <= t) /\ ((u < k)%nat -> t < xc (i + u)%nat).
Proof.
  induction k as [|k IH]; intros i t Hinc; cbn [upper_pt]; [repeat split; intros; lia|].
  destruct (Rlt_dec t (xc i)) as [Hlt|Hge].
  - split; [lia|]. split; [intros; lia|]. intros _. now rewrite Nat.add_0_r.
  - destruct (IH (S i) t) as (H1 & H2 & H3); [intros a b Ha Hab Hb; apply Hinc; lia|].
    split; [lia|]. split.
    + intros [|j] Hj; [rewrite Nat.add_0_r; lra|]. replace (i + S j)%nat with (S i + j)%nat by lia. apply H2. lia.
    + intros Hu. replace (i + S (upper_pt xc (S i) k t))%nat with (S i + upper_pt xc (S i) k t)%nat by lia. apply H3. lia.
Qed.

Lemma cell_index_spec xc n t : (2 <= n)%nat -> increasing xc n ->
  let i := cell_index xc n t in (i < n - 1)%nat /\ (i = O \/ xc i <= t) /\ (S i = (n - 1)%nat \/ t < xc (S i)).
Proof.
  intros Hn Hi. cbv zeta. unfold cell_index.
  pose proof (upper_pt_spec xc n 0 t) as Hu. cbv zeta in Hu.
  destruct Hu as (H1 & H2 & H3); [intros; apply (increasing_lt xc n); trivial; lia|].
  destruct (Rlt_dec t (xc O)) as [Hlt|Hge].
  - destruct (Nat.eqb_spec 0 (n - 1)); [lia|]. split; [lia|]. split; [auto|]. right.
    pose proof (increasing_lt xc n Hi 0 1 ltac:(lia) ltac:(lia)). lra.
  - set (u := upper_pt xc 0 n t) in *. assert (Hu0 : (0 < u)%nat).
    { destruct (Nat.eq_dec u 0) as [E|]; [|lia]. rewrite E in H3. specialize (H3 ltac:(lia)). cbn in H3. lra. }
    destruct (Nat.eqb_spec (u - 1) (n - 1)) as [E|E].
    + split; [lia|]. split; [|left; lia]. right. apply (H2 (u - 1 - 1)%nat). lia.
    + split; [lia|]. split; [right; apply (H2 (u - 1)%nat); lia|]. right. specialize (H3 ltac:(lia)). replace (S (u - 1)) with u by lia. exact H3.
Qed.

(** *** Continuity of functions of two reals *)
Definition cont2 (F : R -> R -> R) (x y : R) : Prop :=
  forall e, 0 < e -> exists d, 0 < d /\ forall x' y', Rabs (x' - x) < d -> Rabs (y' - y) < d -> Rabs (F x' y' - F x y) < e.
Lemma cont2_const c x y : cont2 (fun _ _ => c) x y.
Proof. intros e He. exists 1. split; [lra|]. intros. rewrite Rminus_eq_0, Rabs_R0. exact He. Qed.
Lemma cont2_fst x y : cont2 (fun a _ => a) x y.
Proof. intros e He. exists e. split; [lra|]. intros. assumption. Qed.
Lemma cont2_snd x y : cont2 (fun _ b => b) x y.
Proof. intros e He. exists e. split; [lra|]. intros. assumption. Qed.
Lemma cont2_plus F G x y : cont2 F x y -> cont2 G x y -> cont2 (fun a b => F a b + G a b) x y.
Proof.
  intros HF HG e He. destruct (HF (e / 2) ltac:(lra)) as (d1 & Hd1 & H1). destruct (HG (e / 2) ltac:(lra)) as (d2 & Hd2 & H2).
  exists (Rmin d1 d2). split; [now apply Rmin_glb_lt|]. intros a b Ha Hb. pose proof (Rmin_l d1 d2). pose proof (Rmin_r d1 d2).
  specialize (H1 a b ltac:(lra) ltac:(lra)). specialize (H2 a b ltac:(lra) ltac:(lra)).
  replace (F a b + G a b - (F x y + G x y)) with ((F a b - F x y) + (G a b - G x y)) by ring.
  eapply Rle_lt_trans; [apply Rabs_triang|]. lra.
Qed.
Lemma cont2_mult F G x y : cont2 F x y -> cont2 G x y -> cont2 (fun a b => F a b * G a b) x y.
Proof.
  intros HF HG e He. set (M := Rabs (F x y) + Rabs (G x y) + 1).
  assert (HM : 1 <= M) by (unfold M; pose proof (Rabs_pos (F x y)); pose proof (Rabs_pos (G x y)); lra).
  set (e1 := Rmin 1 (e / (2 * M))).
  assert (He1 : 0 < e1) by (unfold e1; apply Rmin_glb_lt; [lra|]; apply Rdiv_lt_0_compat; lra).
  destruct (HF e1 He1) as (d1 & Hd1 & H1). destruct (HG e1 He1) as (d2 & Hd2 & H2).
  exists (Rmin d1 d2). split; [now apply Rmin_glb_lt|]. intros a b Ha Hb. pose proof (Rmin_l d1 d2). pose proof (Rmin_r d1 d2).
  specialize (H1 a b ltac:(lra) ltac:(lra)). specialize (H2 a b ltac:(lra) ltac:(lra)).
  replace (F a b * G a b - F x y * G x y) with ((F a b - F x y) * (G a b - G x y) + (F a b - F x y) * G x y + F x y * (G a b - G x y)) by ring.
  pose proof (Rmin_l 1 (e / (2 * M))) as Hm1. pose proof (Rmin_r 1 (e / (2 * M))) as Hm2. fold e1 in Hm1, Hm2.
  pose proof (Rabs_pos (F a b - F x y)) as P1. pose proof (Rabs_pos (G a b - G x y)) as P2. pose proof (Rabs_pos (F x y)) as P3. pose proof (Rabs_pos (G x y)) as P4.
  eapply Rle_lt_trans; [apply Rabs_triang|]. eapply Rle_lt_trans; [apply Rplus_le_compat_r, Rabs_triang|]. rewrite !Rabs_mult.
  assert (Hb1 : Rabs (F a b - F x y) * Rabs (G a b - G x y) <= e1 * 1) by (apply Rmult_le_compat; lra).
  assert (Hb2 : Rabs (F a b - F x y) * Rabs (G x y) <= e1 * Rabs (G x y)) by (apply Rmult_le_compat_r; lra).
  assert (Hb3 : Rabs (F x y) * Rabs (G a b - G x y) <= Rabs (F x y) * e1) by (apply Rmult_le_compat_l; lra).
  assert (Hsum : e1 * M <= e / 2).
  { apply Rle_trans with (e / (2 * M) * M); [apply Rmult_le_compat_r; lra|]. right. field. lra. }
  unfold M in Hsum. lra.
Qed.

(** *** A function given on closed cells *)
(** At most two pieces cover a neighbourhood of a point. *)
Lemma cover N (K : nat -> R) (HN : (0 < N)%nat) (HK : forall i, (S i < N)%nat -> K i < K (S i)) t : exists i1 i2 d, (i1 < N)%nat /\ (i2 < N)%nat /\ 0 < d /\
  on_piece N K i1 t /\ on_piece N K i2 t /\ forall u, Rabs (u - t) < d -> on_piece N K i1 u \/ on_piece N K i2 u.
Proof.
  destruct (locate N K HN HK t) as (j & Hj & [(d & Hd & Hu)|(i & d & -> & -> & Hd & Hl & Hr)]).
  - exists j, j, d. repeat split; trivial; try (apply Hu; lra). intros u Hab. apply Rabs_def2 in Hab. left. apply Hu. lra.
  - exists i, (S i), d. split; [lia|]. split; [exact Hj|]. split; [exact Hd|]. split; [apply Hl; lra|]. split; [apply Hr; lra|].
    intros u Hab. apply Rabs_def2 in Hab. destruct (Rle_dec u (K (S i))); [left; apply Hl; lra|right; apply Hr; lra].
Qed.
Section Cells.
Variables (F : R -> R -> R) (Nx Ny : nat) (X Y : nat -> R) (G : nat -> nat -> R -> R -> R).
Hypotheses (HNx : (0 < Nx)%nat) (HNy : (0 < Ny)%nat).
Hypothesis HX : forall i, (S i < Nx)%nat -> X i < X (S i).
Hypothesis HY : forall i, (S i < Ny)%nat -> Y i < Y (S i).
Hypothesis HF : forall i j x y, (i < Nx)%nat -> (j < Ny)%nat -> on_piece Nx X i x -> on_piece Ny Y j y -> F x y = G i j x y.

Lemma cells_continuous : (forall i j x y, (i < Nx)%nat -> (j < Ny)%nat -> cont2 (G i j) x y) -> forall x y, cont2 F x y.
Proof.
  intros HG x y e He.
  destruct (cover Nx X HNx HX x) as (i1 & i2 & dx & Hi1 & Hi2 & Hdx & Px1 & Px2 & Cx).
  destruct (cover Ny Y HNy HY y) as (j1 & j2 & dy & Hj1 & Hj2 & Hdy & Py1 & Py2 & Cy).
  destruct (HG i1 j1 x y Hi1 Hj1 e He) as (d1 & Hd1 & H1). destruct (HG i1 j2 x y Hi1 Hj2 e He) as (d2 & Hd2 & H2).
  destruct (HG i2 j1 x y Hi2 Hj1 e He) as (d3 & Hd3 & H3). destruct (HG i2 j2 x y Hi2 Hj2 e He) as (d4 & Hd4 & H4).
  exists (Rmin (Rmin dx dy) (Rmin (Rmin d1 d2) (Rmin d3 d4))). split; [repeat apply Rmin_glb_lt; assumption|].
  intros a b Ha Hb.
  pose proof (Rmin_l (Rmin dx dy) (Rmin (Rmin d1 d2) (Rmin d3 d4))). pose proof (Rmin_r (Rmin dx dy) (Rmin (Rmin d1 d2) (Rmin d3 d4))).
  pose proof (Rmin_l dx dy). pose proof (Rmin_r dx dy). pose proof (Rmin_l (Rmin d1 d2) (Rmin d3 d4)). pose proof (Rmin_r (Rmin d1 d2) (Rmin d3 d4)).
  pose proof (Rmin_l d1 d2). pose proof (Rmin_r d1 d2). pose proof (Rmin_l d3 d4). pose proof (Rmin_r d3 d4).
  destruct (Cx a ltac:(lra)) as [Qx|Qx]; destruct (Cy b ltac:(lra)) as [Qy|Qy].
  - rewrite (HF i1 j1 a b), (HF i1 j1 x y) by assumption. apply H1; lra.
  - rewrite (HF i1 j2 a b), (HF i1 j2 x y) by assumption. apply H2; lra.
  - rewrite (HF i2 j1 a b), (HF i2 j1 x y) by assumption. apply H3; lra.
  - rewrite (HF i2 j2 a b), (HF i2 j2 x y) by assumption. apply H4; lra.
Qed.
End Cells.

(** *** The cell polynomial on its edges *)
Definition herm (f0 f1 g0 g1 u : R) : R := (((2 * f0 - 2 * f1 + g0 + g1) * u + (-3 * f0 + 3 * f1 - 2 * g0 - g1)) * u + g0) * u + f0.
Lemma poly_t0 z0 z1 z2 z3 p0 p1 p2 p3 q0 q1 q2 q3 r0 r1 r2 r3 u :
  cell_poly z0 z1 z2 z3 p0 p1 p2 p3 q0 q1 q2 q3 r0 r1 r2 r3 0 u = herm z0 z3 q0 q3 u.
Proof. unfold cell_poly, herm. ring. Qed.
Lemma poly_t1 z0 z1 z2 z3 p0 p1 p2 p3 q0 q1 q2 q3 r0 r1 r2 r3 u :
  cell_poly z0 z1 z2 z3 p0 p1 p2 p3 q0 q1 q2 q3 r0 r1 r2 r3 1 u = herm z1 z2 q1 q2 u.
Proof. unfold cell_poly, herm. ring. Qed.
Lemma poly_u0 z0 z1 z2 z3 p0 p1 p2 p3 q0 q1 q2 q3 r0 r1 r2 r3 t :
  cell_poly z0 z1 z2 z3 p0 p1 p2 p3 q0 q1 q2 q3 r0 r1 r2 r3 t 0 = herm z0 z1 p0 p1 t.
Proof. unfold cell_poly, herm. ring. Qed.
Lemma poly_u1 z0 z1 z2 z3 p0 p1 p2 p3 q0 q1 q2 q3 r0 r1 r2 r3 t :
  cell_poly z0 z1 z2 z3 p0 p1 p2 p3 q0 q1 q2 q3 r0 r1 r2 r3 t 1 = herm z3 z2 p3 p2 t.
Proof. unfold cell_poly, herm. ring. Qed.
(** As a cubic in t with Hermite data from the two edges. *)
Lemma poly_herm_t z0 z1 z2 z3 p0 p1 p2 p3 q0 q1 q2 q3 r0 r1 r2 r3 t u :
  cell_poly z0 z1 z2 z3 p0 p1 p2 p3 q0 q1 q2 q3 r0 r1 r2 r3 t u =
  herm (herm z0 z3 q0 q3 u) (herm z1 z2 q1 q2 u) (herm p0 p3 r0 r3 u) (herm p1 p2 r1 r2 u) t.
Proof. unfold cell_poly, herm. ring. Qed.
Lemma poly_herm_u z0 z1 z2 z3 p0 p1 p2 p3 q0 q1 q2 q3 r0 r1 r2 r3 t u :
  cell_poly z0 z1 z2 z3 p0 p1 p2 p3 q0 q1 q2 q3 r0 r1 r2 r3 t u =
  herm (herm z0 z1 p0 p1 t) (herm z3 z2 p3 p2 t) (herm q0 q1 r0 r1 t) (herm q3 q2 r3 r2 t) u.
Proof. unfold cell_poly, herm. ring. Qed.
Lemma herm_0 f0 f1 g0 g1 : herm f0 f1 g0 g1 0 = f0.
Proof. unfold herm. ring. Qed.
Lemma herm_1 f0 f1 g0 g1 : herm f0 f1 g0 g1 1 = f1.
Proof. unfold herm. ring. Qed.
Lemma herm_scale k f0 f1 g0 g1 u : herm (f0 * k) (f1 * k) (g0 * k) (g1 * k) u = herm f0 f1 g0 g1 u * k.
Proof. unfold herm. ring. Qed.
Definition herm' (f0 f1 g0 g1 u : R) : R := (3 * (2 * f0 - 2 * f1 + g0 + g1) * u + 2 * (-3 * f0 + 3 * f1 - 2 * g0 - g1)) * u + g0.
Lemma herm'_0 f0 f1 g0 g1 : herm' f0 f1 g0 g1 0 = g0.
Proof. unfold herm'. ring. Qed.
Lemma herm'_1 f0 f1 g0 g1 : herm' f0 f1 g0 g1 1 = g1.
Proof. unfold herm'. ring. Qed.
Lemma herm_derivable f0 f1 g0 g1 a b t : derivable_pt_lim (fun z => herm f0 f1 g0 g1 ((z - a) / b)) t (herm' f0 f1 g0 g1 ((t - a) / b) / b).
Proof.
  set (s := Seg a f0 (g0 / b) ((-3 * f0 + 3 * f1 - 2 * g0 - g1) / b / b) ((2 * f0 - 2 * f1 + g0 + g1) / b / b / b)).
  assert (E : forall z, herm f0 f1 g0 g1 ((z - a) / b) = seg_eval s z) by (intros z; unfold herm, seg_eval, s, Rdiv; cbn; ring).
  replace (herm' f0 f1 g0 g1 ((t - a) / b) / b) with (seg_deriv s t) by (unfold herm', seg_deriv, s, Rdiv; cbn; ring).
  intros e He. destruct (seg_derivable s t e He) as (d & Hd). exists d. intros h Hh0 Hh. rewrite !E. now apply Hd.
Qed.

(** Pieces in x: the chosen index may be replaced by any piece containing x. *)
Lemma index_any xc n (H2 : (2 <= n)%nat) (Hi : increasing xc n) i t : (i < n - 1)%nat -> on_piece (n - 1) xc i t ->
  cell_index xc n t = i \/ (cell_index xc n t = S i /\ (S i < n - 1)%nat /\ t = xc (S i)).
Proof.
  intros Hin [P1 P2]. destruct (cell_index_spec xc n t H2 Hi) as (C1 & C2 & C3). set (c := cell_index xc n t) in *.
  destruct (Nat.lt_trichotomy c i) as [Hlt|[E|Hgt]]; [|now left|].
  - exfalso. destruct C3 as [C3|C3]; [lia|]. destruct P1 as [P1|P1]; [lia|].
    destruct (Nat.eq_dec (S c) i) as [<-|]; [lra|]. pose proof (increasing_lt xc n Hi (S c) i ltac:(lia) ltac:(lia)). lra.
  - right. destruct P2 as [P2|P2]; [lia|]. destruct C2 as [C2|C2]; [lia|].
    destruct (Nat.eq_dec (S i) c) as [E|]; [rewrite <- E in *; split; [reflexivity|]; split; [lia|lra]|].
    exfalso. pose proof (increasing_lt xc n Hi (S i) c ltac:(lia) ltac:(lia)). lra.
Qed.
Lemma node_piece xc n (H2 : (2 <= n)%nat) (Hi : increasing xc n) i : (i < n)%nat -> exists k, (k < n - 1)%nat /\ on_piece (n - 1) xc k (xc i) /\ (k = i \/ S k = i).
Proof.
  intros Hlt. destruct (Nat.eq_dec i (n - 1)) as [E|E].
  - exists (n - 2)%nat. split; [lia|]. split; [|lia]. split; [|left; lia]. right. apply Rlt_le. apply (increasing_lt xc n); trivial; lia.
  - exists i. split; [lia|]. split; [|auto]. split; [right; lra|].
    destruct (Nat.eq_dec (S i) (n - 1)); [now left|right]. apply Rlt_le. apply Hi. lia.
Qed.

Section B.
Variable b : bicubic.
Hypotheses (Hnx : (2 <= bnx b)%nat) (Hny : (2 <= bny b)%nat).
Hypotheses (Hx : increasing (bx b) (bnx b)) (Hy : increasing (by_ b) (bny b)).
Notation Nx := (bnx b - 1)%nat.
Notation Ny := (bny b - 1)%nat.

Lemma cell_right i j y : (S i < bnx b)%nat -> cell_eval b i j (bx b (S i)) y =
  herm (bdata b j (S i)) (bdata b (S j) (S i)) (bdy b j (S i) * (by_ b (S j) - by_ b j)) (bdy b (S j) (S i) * (by_ b (S j) - by_ b j)) ((y - by_ b j) / (by_ b (S j) - by_ b j)).
Proof.
  intros Hi. unfold cell_eval. pose proof (Hx i Hi). replace ((bx b (S i) - bx b i) / (bx b (S i) - bx b i)) with 1 by (field; lra).
  apply poly_t1.
Qed.
Lemma cell_left i j y : cell_eval b i j (bx b i) y =
  herm (bdata b j i) (bdata b (S j) i) (bdy b j i * (by_ b (S j) - by_ b j)) (bdy b (S j) i * (by_ b (S j) - by_ b j)) ((y - by_ b j) / (by_ b (S j) - by_ b j)).
Proof. unfold cell_eval. replace ((bx b i - bx b i) / (bx b (S i) - bx b i)) with 0 by (unfold Rdiv; ring). apply poly_t0. Qed.
Lemma cell_top i j x : (S j < bny b)%nat -> cell_eval b i j x (by_ b (S j)) =
  herm (bdata b (S j) i) (bdata b (S j) (S i)) (bdx b (S j) i * (bx b (S i) - bx b i)) (bdx b (S j) (S i) * (bx b (S i) - bx b i)) ((x - bx b i) / (bx b (S i) - bx b i)).
Proof.
  intros Hj. unfold cell_eval. pose proof (Hy j Hj). replace ((by_ b (S j) - by_ b j) / (by_ b (S j) - by_ b j)) with 1 by (field; lra).
  apply poly_u1.
Qed.
Lemma cell_bottom i j x : cell_eval b i j x (by_ b j) =
  herm (bdata b j i) (bdata b j (S i)) (bdx b j i * (bx b (S i) - bx b i)) (bdx b j (S i) * (bx b (S i) - bx b i)) ((x - bx b i) / (bx b (S i) - bx b i)).
Proof. unfold cell_eval. replace ((by_ b j - by_ b j) / (by_ b (S j) - by_ b j)) with 0 by (unfold Rdiv; ring). apply poly_u0. Qed.

Lemma eval_cell i j x y : (i < Nx)%nat -> (j < Ny)%nat -> on_piece Nx (bx b) i x -> on_piece Ny (by_ b) j y ->
  bicubic_eval b x y = cell_eval b i j x y.
Proof.
  intros Hi Hj Px Py. unfold bicubic_eval. destruct (Nat.eqb_spec (bnx b) 0); [lia|]. destruct (Nat.eqb_spec (bny b) 0); [lia|]. cbn [orb].
  transitivity (cell_eval b i (cell_index (by_ b) (bny b) y) x y).
  - destruct (index_any (bx b) (bnx b) Hnx Hx i x Hi Px) as [->|(-> & Hlt & Ex)]; [reflexivity|].
    rewrite Ex. rewrite cell_left, cell_right by lia. reflexivity.
  - destruct (index_any (by_ b) (bny b) Hny Hy j y Hj Py) as [->|(-> & Hlt & Ey)]; [reflexivity|].
    rewrite Ey. rewrite cell_bottom, cell_top by lia. reflexivity.
Qed.
Lemma bicubic_nodes i j : (i < bnx b)%nat -> (j < bny b)%nat -> bicubic_eval b (bx b i) (by_ b j) = bdata b j i.
Proof.
  intros Hi Hj. destruct (node_piece (bx b) (bnx b) Hnx Hx i Hi) as (k & Hk & Pk & Ek).
  destruct (node_piece (by_ b) (bny b) Hny Hy j Hj) as (l & Hl & Pl & El).
  rewrite (eval_cell k l) by assumption.
  assert (Hu : (by_ b j - by_ b l) / (by_ b (S l) - by_ b l) = 0 /\ l = j \/ (by_ b j - by_ b l) / (by_ b (S l) - by_ b l) = 1 /\ S l = j).
  { destruct El as [->|<-]; [left; split; trivial; unfold Rdiv; ring|right; split; trivial]. pose proof (Hy l ltac:(lia)). field. lra. }
  destruct Ek as [->|<-].
  - rewrite cell_left. destruct Hu as [[-> ->]|[-> <-]]; [apply herm_0|apply herm_1].
  - rewrite cell_right by lia. destruct Hu as [[-> ->]|[-> <-]]; [apply herm_0|apply herm_1].
Qed.


Lemma cont2_opp F x y : cont2 F x y -> cont2 (fun p q => - F p q) x y.
Proof.
  intros H e He. destruct (H e He) as (d & Hd & Hq). exists d. split; [exact Hd|]. intros p q Hp Hq'.
  replace (- F p q - - F x y) with (- (F p q - F x y)) by ring. rewrite Rabs_Ropp. now apply Hq.
Qed.
Lemma bicubic_continuous : forall x y, cont2 (bicubic_eval b) x y.
Proof.
  apply (cells_continuous (bicubic_eval b) Nx Ny (bx b) (by_ b) (cell_eval b)); try lia.
  - intros i H. apply Hx. lia.
  - intros i H. apply Hy. lia.
  - intros. now apply eval_cell.
  - intros i j x y _ _. unfold cell_eval, cell_poly, Rdiv, Rminus. cbv zeta.
    repeat first [apply cont2_const | apply cont2_fst | apply cont2_snd | apply cont2_plus | apply cont2_mult | apply cont2_opp].
Qed.

(** Partial derivatives exist everywhere, also on cell edges. *)
Definition cell_dx (i j : nat) (x y : R) : R :=
  let dx := bx b (S i) - bx b i in let dy := by_ b (S j) - by_ b j in let u := (y - by_ b j) / dy in
  herm' (herm (bdata b j i) (bdata b (S j) i) (bdy b j i * dy) (bdy b (S j) i * dy) u)
        (herm (bdata b j (S i)) (bdata b (S j) (S i)) (bdy b j (S i) * dy) (bdy b (S j) (S i) * dy) u)
        (herm (bdx b j i * dx) (bdx b (S j) i * dx) (bdxy b j i * dx * dy) (bdxy b (S j) i * dx * dy) u)
        (herm (bdx b j (S i) * dx) (bdx b (S j) (S i) * dx) (bdxy b j (S i) * dx * dy) (bdxy b (S j) (S i) * dx * dy) u)
        ((x - bx b i) / dx) / dx.
Definition cell_dy (i j : nat) (x y : R) : R :=
  let dx := bx b (S i) - bx b i in let dy := by_ b (S j) - by_ b j in let t := (x - bx b i) / dx in
  herm' (herm (bdata b j i) (bdata b j (S i)) (bdx b j i * dx) (bdx b j (S i) * dx) t)
        (herm (bdata b (S j) i) (bdata b (S j) (S i)) (bdx b (S j) i * dx) (bdx b (S j) (S i) * dx) t)
        (herm (bdy b j i * dy) (bdy b j (S i) * dy) (bdxy b j i * dx * dy) (bdxy b j (S i) * dx * dy) t)
        (herm (bdy b (S j) i * dy) (bdy b (S j) (S i) * dy) (bdxy b (S j) i * dx * dy) (bdxy b (S j) (S i) * dx * dy) t)
        ((y - by_ b j) / dy) / dy.
Lemma cell_derivable_x i j x y : derivable_pt_lim (fun z => cell_eval b i j z y) x (cell_dx i j x y).
Proof.
  unfold cell_dx. cbv zeta.
  match goal with |- derivable_pt_lim _ _ (herm' ?f0 ?f1 ?g0 ?g1 _ / _) =>
    pose proof (herm_derivable f0 f1 g0 g1 (bx b i) (bx b (S i) - bx b i) x) as H end.
  intros e He. destruct (H e He) as (d & Hd). exists d. intros h H0 H1.
  unfold cell_eval. rewrite !poly_herm_t. now apply Hd.
Qed.
Lemma cell_derivable_y i j x y : derivable_pt_lim (fun z => cell_eval b i j x z) y (cell_dy i j x y).
Proof.
  unfold cell_dy. cbv zeta.
  match goal with |- derivable_pt_lim _ _ (herm' ?f0 ?f1 ?g0 ?g1 _ / _) =>
    pose proof (herm_derivable f0 f1 g0 g1 (by_ b j) (by_ b (S j) - by_ b j) y) as H end.
  intros e He. destruct (H e He) as (d & Hd). exists d. intros h H0 H1.
  unfold cell_eval. rewrite !poly_herm_u. now apply Hd.
Qed.
Lemma herm_slope k l f0 f1 g0 g1 u : k <> 0 -> herm (f0 * k) (f1 * k) (g0 * k * l) (g1 * k * l) u / k = herm f0 f1 (g0 * l) (g1 * l) u.
Proof. intros Hk. unfold herm. field. exact Hk. Qed.
Lemma bicubic_derivable_x i j x y : (i < Nx)%nat -> (j < Ny)%nat -> on_piece Nx (bx b) i x -> on_piece Ny (by_ b) j y ->
  derivable_pt_lim (fun z => bicubic_eval b z y) x (cell_dx i j x y).
Proof.
  intros Hi Hj Px Py.
  apply (pieces_derivative (fun z => bicubic_eval b z y) Nx (bx b) (fun i z => cell_eval b i j z y) ltac:(lia)) with (g' := fun i z => cell_dx i j z y); trivial.
  - intros k H. apply Hx. lia.
  - intros k t Hk Pt. now apply eval_cell.
  - intros k t _. apply cell_derivable_x.
  - intros k Hk ->. unfold cell_dx. cbv zeta. pose proof (Hx k ltac:(lia)). pose proof (Hx (S k) ltac:(lia)).
    replace ((bx b (S k) - bx b k) / (bx b (S k) - bx b k)) with 1 by (field; lra).
    replace ((bx b (S k) - bx b (S k)) / (bx b (S (S k)) - bx b (S k))) with 0 by (unfold Rdiv; ring).
    rewrite herm'_0, herm'_1. rewrite !herm_slope by lra. reflexivity.
Qed.
Lemma bicubic_derivable_y i j x y : (i < Nx)%nat -> (j < Ny)%nat -> on_piece Nx (bx b) i x -> on_piece Ny (by_ b) j y ->
  derivable_pt_lim (fun z => bicubic_eval b x z) y (cell_dy i j x y).
Proof.
  intros Hi Hj Px Py.
  apply (pieces_derivative (fun z => bicubic_eval b x z) Ny (by_ b) (fun j z => cell_eval b i j x z) ltac:(lia)) with (g' := fun j z => cell_dy i j x z); trivial.
  - intros k H. apply Hy. lia.
  - intros k t Hk Pt. now apply eval_cell.
  - intros k t _. apply cell_derivable_y.
  - intros k Hk ->. unfold cell_dy. cbv zeta. pose proof (Hy k ltac:(lia)). pose proof (Hy (S k) ltac:(lia)).
    replace ((by_ b (S k) - by_ b k) / (by_ b (S k) - by_ b k)) with 1 by (field; lra).
    replace ((by_ b (S k) - by_ b (S k)) / (by_ b (S (S k)) - by_ b (S k))) with 0 by (unfold Rdiv; ring).
    rewrite herm'_0, herm'_1.
    assert (E : forall k' l f0 f1 g0 g1 u, l <> 0 -> herm (f0 * l) (f1 * l) (g0 * k' * l) (g1 * k' * l) u / l = herm f0 f1 (g0 * k') (g1 * k') u)
      by (intros; unfold herm; field; assumption).
    rewrite !E by lra. reflexivity.
Qed.
End B.

(** *** The constructor *)
Lemma slopes_ok x y n : (3 <= n)%nat -> increasing x n -> slopes x y n = Ok (map (node_slope x y n) (seq 0 n)).
Proof. intros Hn Hi. unfold slopes. rewrite akima_ok by assumption. cbn [obind]. now apply derivatives_ok. Qed.
Lemma slopes_bad x y n : ~ ((3 <= n)%nat /\ increasing x n) -> slopes x y n = Throw RuntimeError.
Proof. intros H. unfold slopes. now rewrite akima_refuses. Qed.
Lemma all_slopes_ok x n f k : forall i, (3 <= n)%nat -> increasing x n ->
  all_slopes x n f i k = Ok (map (fun a => map (node_slope x (f a) n) (seq 0 n)) (seq i k)).
Proof. induction k as [|k IH]; intros i Hn Hi; cbn; [reflexivity|]. rewrite slopes_ok by assumption. cbn. rewrite IH by assumption. reflexivity. Qed.
Lemma all_slopes_bad x n f k i : (0 < k)%nat -> ~ ((3 <= n)%nat /\ increasing x n) -> all_slopes x n f i k = Throw RuntimeError.
Proof. intros Hk H. destruct k as [|k]; [lia|]. cbn. now rewrite slopes_bad. Qed.
Lemma look_map (F : nat -> nat -> R) k n a c : (a < k)%nat -> (c < n)%nat -> look (map (fun a => map (F a) (seq 0 n)) (seq 0 k)) a c = F a c.
Proof.
  intros Ha Hc. unfold look. rewrite (nth_indep _ [] ((fun a => map (F a) (seq 0 n)) O)) by (rewrite map_length, seq_length; lia).
  rewrite map_nth with (f := fun a => map (F a) (seq 0 n)). rewrite seq_nth by lia. cbn [Nat.add].
  rewrite (nth_indep _ 0 (F a O)) by (rewrite map_length, seq_length; lia). rewrite map_nth with (f := F a). now rewrite seq_nth by lia.
Qed.
Lemma make_ok data rows cols xc yc : (3 <= rows)%nat -> (3 <= cols)%nat -> increasing xc cols -> increasing yc rows ->
  exists b, bicubic_make data rows cols xc cols yc rows = Ok b /\ bdata b = data /\ bnx b = cols /\ bny b = rows /\ bx b = xc /\ by_ b = yc /\
  (forall i j, (i < cols)%nat -> (j < rows)%nat ->
     bdx b j i = node_slope xc (data j) cols i /\ bdy b j i = node_slope yc (fun k => data k i) rows j).
Proof.
  intros Hr Hc Hx Hy. unfold bicubic_make. rewrite !Nat.eqb_refl. cbn [negb].
  rewrite all_slopes_ok by assumption. cbn [obind]. rewrite all_slopes_ok by assumption. cbn [obind]. rewrite all_slopes_ok by assumption. cbn [obind].
  eexists. split; [reflexivity|]. cbn. repeat split; trivial.
  - rewrite (look_map (fun a => node_slope xc (data a) cols)) by assumption. reflexivity.
  - rewrite (look_map (fun a => node_slope yc (fun k => data k a) rows)) by assumption. reflexivity.
Qed.
Lemma make_refuses data rows cols xc nx yc ny : 
  nx <> cols \/ ny <> rows \/ ((0 < rows)%nat /\ (0 < cols)%nat /\ ~ ((3 <= rows)%nat /\ (3 <= cols)%nat /\ increasing xc cols /\ increasing yc rows)) ->
  bicubic_make data rows cols xc nx yc ny = Throw RuntimeError.
Proof.
  intros H. unfold bicubic_make. destruct (Nat.eqb_spec nx cols); cbn [negb]; [|reflexivity]. destruct (Nat.eqb_spec ny rows); cbn [negb]; [|reflexivity].
  destruct H as [H|[H|(Hr & Hc & H)]]; [congruence|congruence|].
  destruct (all_slopes yc rows (fun i j => data j i) 0 cols) as [dy| |] eqn:E1.
  2:{ destruct (le_dec 3 rows) as [H3|H3].
      - assert (Hb : ~ ((3 <= rows)%nat /\ increasing yc rows)).
        { intros [_ Hi]. rewrite all_slopes_ok in E1 by assumption. discriminate. }
        rewrite all_slopes_bad in E1 by assumption. cbn. congruence.
      - rewrite all_slopes_bad in E1 by (trivial; lia). cbn. congruence. }
  2:{ exfalso. destruct cols as [|c]; [lia|]. cbn in E1. unfold slopes in E1.
      destruct (le_dec 3 rows) as [H3|H3]; [|rewrite akima_refuses in E1 by lia; discriminate].
      assert (Hd : increasing yc rows \/ ~ increasing yc rows).
      { unfold increasing. clear. induction rows as [|[|k] IH]; [left; intros; lia|left; intros; lia|].
        destruct IH as [IH|IH]; [|right; intros Hq; apply IH; intros j Hj; apply Hq; lia].
        destruct (Rlt_dec (yc k) (yc (S k))) as [Hl|Hl]; [left|right; intros Hq; apply Hl, Hq; lia].
        intros j Hj. destruct (Nat.eq_dec j k) as [->|]; [exact Hl|apply IH; lia]. }
      destruct Hd as [Hd|Hd]; [|rewrite akima_refuses in E1 by tauto; discriminate].
      change (obind (slopes yc (fun j => data j O) rows) (fun l => obind (all_slopes yc rows (fun i j => data j i) 1 c) (fun r => Ok (l :: r))) = UB) in E1.
      rewrite slopes_ok in E1 by assumption. cbn in E1. rewrite all_slopes_ok in E1 by assumption. discriminate. }
  cbn [obind]. 
  assert (Hry : (3 <= rows)%nat /\ increasing yc rows).
  { destruct cols as [|c]; [lia|]. cbn in E1. destruct (le_dec 3 rows) as [H3|H3]; [|rewrite slopes_bad in E1 by lia; discriminate].
    split; [exact H3|]. intros j Hj. destruct (Rlt_dec (yc j) (yc (S j))) as [|Hn]; [assumption|exfalso].
    rewrite slopes_bad in E1; [discriminate|]. intros [_ Hq]. apply Hn, Hq, Hj. }
  rewrite all_slopes_bad; trivial. intros [Hq1 Hq2]. apply H. tauto.
Qed.
