(** C88: the Python tools. *)
From Coq Require Import Reals List Arith Bool Lia Lra.
From Coq Require Import String.
From Verif Require Import Err CMatrix FlavorProofs ToolsModel ToolsProofs.
Import ListNotations.
Open Scope R_scope.

(** matrix number [p] of the basis *)
Definition generator (n p : nat) : mat :=
  match nth_error (su_basis n) p with Some A => a_at A | None => mzero end.
(** sum of the first [m] matrices with real weights *)
Definition combination (n m : nat) (c : nat -> R) : mat := msum m (fun p => mscale (c p) (generator n p)).

Lemma gen_at n i j : (i < n)%nat -> (j < n)%nat -> meq n (generator n (i * n + j)) (gm j i).
Proof. intros Hi Hj a b Ha Hb. unfold generator. rewrite su_at by assumption. apply f_closed; assumption. Qed.

Lemma split n p : (p < n * n)%nat -> exists i j, (i < n)%nat /\ (j < n)%nat /\ p = (i * n + j)%nat.
Proof.
  intro L. assert (N : n <> 0%nat) by lia. exists (p / n)%nat, (p mod n)%nat.
  split; [apply Nat.div_lt_upper_bound; lia|]. split; [apply Nat.mod_upper_bound; exact N|].
  rewrite (Nat.mul_comm (p / n)). apply Nat.div_mod. exact N.
Qed.
Lemma split_unique n i j i' j' : (j < n)%nat -> (j' < n)%nat -> (i * n + j = i' * n + j')%nat -> i = i' /\ j = j'.
Proof.
  intros H1 H2 E. assert (i = i')%nat as ->; [|lia].
  destruct (lt_eq_lt_dec i i') as [[L|Q]|L]; [|exact Q|]; exfalso.
  - assert (S i * n <= i' * n)%nat by (apply Nat.mul_le_mono_r; lia). cbn in H. lia.
  - assert (S i' * n <= i * n)%nat by (apply Nat.mul_le_mono_r; lia). cbn in H. lia.
Qed.

(** The basis holds n*n matrices of n rows and n columns, all hermitian. *)
Theorem c88_basis n : (1 < n)%nat ->
  List.length (su_basis n) = (n * n)%nat /\
  Forall (fun A => a_shape A = [n; n]) (su_basis n) /\
  forall p, (p < n * n)%nat -> hermitian n (generator n p).
Proof.
  intro L. split; [apply su_length|]. split.
  - apply Forall_forall. intros A H. apply in_flat_map in H as (i & Hi & H). apply in_map_iff in H as (j & <- & Hj).
    apply in_seq in Hi, Hj. apply f_shape; lia.
  - intros p Hp. destruct (split n p Hp) as (i & j & Hi & Hj & ->).
    intros a b Ha Hb. unfold dagger. rewrite !(gen_at n i j Hi Hj) by assumption. apply (gm_hermitian n j i a b Ha Hb).
Qed.

(** They are orthogonal in the trace; their squares have trace two, that of the
    first — the identity — n; all others are traceless. *)
Theorem c88_orthogonal n p q : (p < n * n)%nat -> (q < n * n)%nat ->
  trace n (mmult n (generator n p) (generator n q)) =
  rtc (if Nat.eqb p q then (if Nat.eqb p 0 then INR n else 2) else 0).
Proof.
  intros Hp Hq. destruct (split n p Hp) as (i & j & Hi & Hj & ->). destruct (split n q Hq) as (i' & j' & Hi' & Hj' & ->).
  rewrite (trace_meq n _ _ (mmult_meq n _ _ _ _ (gen_at n i j Hi Hj) (gen_at n i' j' Hi' Hj'))), gm_trace by assumption.
  f_equal. destruct (Nat.eqb_spec (i * n + j) (i' * n + j')) as [E|E].
  - apply split_unique in E as (-> & ->); [|assumption|assumption]. rewrite !Nat.eqb_refl. cbn [andb]. unfold norm.
    destruct (Nat.eqb_spec (i' * n + j') 0) as [Z|Z].
    + assert (i' = 0 /\ j' = 0)%nat as (-> & ->) by nia. reflexivity.
    + destruct (Nat.eqb_spec j' 0) as [->|]; cbn [andb]; [|reflexivity].
      destruct (Nat.eqb_spec i' 0) as [->|]; [lia|reflexivity].
  - destruct (Nat.eqb_spec j j') as [->|]; cbn [andb]; [|reflexivity].
    destruct (Nat.eqb_spec i i') as [->|]; [congruence|reflexivity].
Qed.

Theorem c88_traceless n p : (0 < n)%nat ->
  meq n (generator n 0) mid /\ ((0 < p < n * n)%nat -> trace n (generator n p) = c0).
Proof.
  intro L.
  assert (Id : meq n (generator n 0) mid).
  { intros a b Ha Hb. pose proof (gen_at n 0 0 L L a b Ha Hb) as G. cbn [Nat.mul Nat.add] in G. rewrite G. unfold gm, mid, delta, dg. cbn [Nat.eqb].
    destruct (Nat.eqb a b); reflexivity. }
  split; [exact Id|]. intros (P0 & P1).
  assert (H0 : (0 < n * n)%nat) by nia.
  pose proof (c88_orthogonal n 0 p H0 P1) as T.
  rewrite (proj2 (Nat.eqb_neq 0 p)) in T by lia.
  rewrite <- rtc_0, <- T. apply trace_meq. eapply meq_trans; [|apply mmult_meq; [apply meq_sym, Id|apply meq_refl]].
  apply meq_sym, mmult_id_l.
Qed.

Lemma trace_combination n m c q : (forall p, (p < m)%nat -> (p < n * n)%nat) -> (q < n * n)%nat ->
  trace n (mmult n (generator n q) (combination n m c)) =
  rtc (if Nat.ltb q m then c q * (if Nat.eqb q 0 then INR n else 2) else 0).
Proof.
  intros Hm Hq. unfold combination. rewrite (trace_meq n _ _ (mmult_msum_r n m _ _)), trace_msum.
  rewrite (csum_ext m _ (fun p => (rtc (c p) * (if Nat.eqb q p then rtc (if Nat.eqb q 0 then INR n else 2) else c0))%C)).
  2:{ intros p Hp. rewrite (trace_meq n _ _ (mmult_scale_r n _ _ _)), trace_scale, c88_orthogonal by auto.
      destruct (Nat.eqb q p); [reflexivity|rewrite rtc_0; reflexivity]. }
  destruct (Nat.ltb_spec q m) as [L|L].
  - rewrite (csum_single m q); [|exact L|].
    + rewrite Nat.eqb_refl, rtc_mult. reflexivity.
    + intros i _ N. rewrite (proj2 (Nat.eqb_neq q i)) by congruence. ring.
  - apply csum_zero. intros p Hp. rewrite (proj2 (Nat.eqb_neq q p)) by lia. ring.
Qed.

(** Every hermitian matrix is the sum of the basis with one and only one set of
    real weights, its overlaps. *)
Theorem c88_components n A : (0 < n)%nat -> hermitian n A ->
  let c := fun p => re (trace n (mmult n (generator n p) A)) / (if Nat.eqb p 0 then INR n else 2) in
  meq n (combination n (n * n) c) A /\
  forall c', meq n (combination n (n * n) c') A -> forall p, (p < n * n)%nat -> c' p = c p.
Proof.
  intros L HA c.
  assert (Np : forall p, 0 < (if Nat.eqb p 0 then INR n else 2)).
  { intro p. destruct (Nat.eqb p 0); [apply lt_0_INR; exact L|lra]. }
  split.
  - set (D := mplus (combination n (n * n) c) (mscale (-1) A)).
    assert (Z : meq n D mzero).
    { apply orthogonal_zero. intros j k Hj Hk. set (q := (k * n + j)%nat).
      assert (Hq : (q < n * n)%nat) by (unfold q; nia).
      rewrite <- (trace_meq n _ _ (mmult_meq n _ _ _ _ (gen_at n k j Hk Hj) (meq_refl n D))). fold q.
      unfold D. rewrite (trace_meq n _ _ (mmult_plus_r n _ _ _)), trace_plus, trace_combination by auto.
      rewrite (trace_meq n _ _ (mmult_scale_r n _ _ _)), trace_scale. rewrite (proj2 (Nat.ltb_lt q (n * n)) Hq).
      assert (Re : im (trace n (mmult n (generator n q) A)) = 0).
      { assert (H : cconj (trace n (mmult n (generator n q) A)) = trace n (mmult n (generator n q) A)).
        { rewrite <- trace_dagger, (trace_meq n _ _ (dagger_mult n _ _)), trace_cycle. apply trace_meq.
          apply mmult_meq; [|exact HA]. intros a b Ha Hb. unfold q, dagger. rewrite !(gen_at n k j Hk Hj) by assumption.
          apply (gm_hermitian n j k a b Ha Hb). }
        apply (f_equal im) in H. cbn in H. lra. }
      unfold c. apply Ceq; cbn [re im cplus cmult rtc c0]; [|rewrite Re; ring].
      specialize (Np q). field. lra. }
    intros a b Ha Hb. specialize (Z a b Ha Hb). unfold D, mplus, mscale, mzero in Z.
    pose proof (f_equal re Z) as A1. pose proof (f_equal im Z) as A2. apply Ceq; cbn in *; lra.
  - intros c' E p Hp. unfold c. rewrite <- (trace_meq n _ _ (mmult_meq n _ _ _ _ (meq_refl n (generator n p)) E)).
    rewrite trace_combination by auto. rewrite (proj2 (Nat.ltb_lt p (n * n)) Hp). cbn [re rtc].
    specialize (Np p). field. lra.
Qed.

(** Refuted: _PrintSUVector does not return that sum.  For two flavours or more
    it raises at the first component, whatever the vector; so PrintState always
    fails. *)
Theorem c88_print_refuted n comps : (1 < n)%nat -> comps <> [] -> print_su n comps = Throw OtherExn.
Proof.
  intros L N. unfold print_su.
  assert (C : existsb a_cplx (su_basis n) = true).
  { apply existsb_exists. exists (f_array 0 1 n). split.
    - apply (nth_error_In _ (1 * n + 0)). apply su_at; lia.
    - rewrite f_cplx by lia. reflexivity. }
  rewrite C. destruct comps as [|c rest]; [contradiction|]. cbn [accumulate].
  assert (F : nth_error (su_basis n) 0 = Some (f_array 0 0 n)) by (apply (su_at n 0 0); lia).
  rewrite F. reflexivity.
Qed.
(** For one flavour it does. *)
Theorem c88_print_one c : exists M, print_su 1 [c] = Ok M /\ meq 1 M (combination 1 1 (fun _ => c)).
Proof.
  eexists. split; [reflexivity|]. intros a b Ha Hb. assert (a = 0 /\ b = 0)%nat as (-> & ->) by lia.
  unfold combination, generator. cbn. apply Ceq; cbn; ring.
Qed.
(** PrintH0 and PrintHI use members the bindings do not offer: they raise for
    every object. *)
Theorem c88_print_hamiltonians_refuted n nume ie : print_h0 n = Throw OtherExn /\ print_hi n nume ie = Throw OtherExn.
Proof. split; [reflexivity|]. unfold print_hi. destruct (Nat.ltb nume ie); reflexivity. Qed.

(** PrintState: never a result for two flavours or more; asked for the node one
    past the last — which its check lets pass, and for any later one, which is
    only reported — it reads outside the state. *)
Theorem c88_print_state_refuted n state ie rho : (1 < n)%nat ->
  (forall r v, In r state -> In v r -> v <> []) ->
  (forall M, print_state n state ie rho <> Ok M) /\
  ((List.length state <= ie)%nat -> print_state n state ie rho = UB).
Proof.
  intros L NE. unfold print_state, get_state. split.
  - intro M. destruct (nth_error state ie) as [r|] eqn:E; [|discriminate].
    destruct (nth_error r rho) as [v|] eqn:F; [|discriminate]. cbn [obind].
    rewrite c88_print_refuted; [discriminate|exact L|]. apply (NE r v); eapply nth_error_In; eassumption.
  - intro H. rewrite (proj2 (nth_error_None state ie) H). reflexivity.
Qed.

(** PrintStatus with a file name cannot be called: the second definition of the
    name replaced it. *)
Theorem c88_print_status_refuted : callable "PrintStatus" 1 = false /\ callable "PrintStatus" 0 = true.
Proof. split; reflexivity. Qed.

(** GetState with one argument is bound through a type the member does not have. *)
Theorem c88_get_state_refuted state ie : py_get_state state ie = UB.
Proof. reflexivity. Qed.

(** GetStates: one row per cosine, each the state at the first energy; nodes at
    other energies do not enter. *)
Theorem c88_get_states nodes rho rows : get_states nodes rho = Ok rows ->
  List.length rows = List.length nodes /\
  forall i r, nth_error rows i = Some r -> exists nd, nth_error nodes i = Some nd /\ get_state nd 0 rho = Ok r.
Proof.
  revert rows. induction nodes as [|nd rest IH]; intros rows E; cbn [get_states] in E.
  - injection E as <-. split; [reflexivity|]. intros i r H. destruct i; discriminate.
  - destruct (get_state nd 0 rho) as [v| |] eqn:G; cbn [obind] in E; try discriminate.
    destruct (get_states rest rho) as [l| |] eqn:Q; cbn [obind] in E; try discriminate. injection E as <-.
    destruct (IH l eq_refl) as (A & B). split; [cbn; congruence|].
    intros [|i] r H; cbn in H.
    + injection H as <-. exists nd. split; [reflexivity|exact G].
    + apply B, H.
Qed.
Theorem c88_other_energies_refuted e0 e1 e1' rho : 
  get_states [[e0; e1]] rho = get_states [[e0; e1']] rho.
Proof. reflexivity. Qed.

(** ** Points of the plots *)
Lemma sampled_in lo hi N l x : lo < hi -> sampled lo hi N = Ok l -> In x l -> lo <= x < hi.
Proof.
  intros L E H. unfold sampled in E. destruct (Req_EM_T hi lo) as [Q|Q]; [discriminate|]. injection E as <-.
  apply in_map_iff in H as (i & <- & Hi). apply in_seq in Hi.
  assert (N0 : 0 < INR N) by (apply lt_0_INR; lia).
  assert (A : 0 <= INR i) by apply pos_INR. assert (B : INR i < INR N) by (apply lt_INR; lia).
  assert (S : 0 < (hi - lo) / INR N) by (apply Rdiv_lt_0_compat; lra).
  split; [nra|]. assert (Z : INR N * ((hi - lo) / INR N) = hi - lo) by (field; lra). nra.
Qed.

Lemma ln10 : 0 < ln 10.
Proof. rewrite <- ln_1. apply ln_increasing; lra. Qed.
Lemma pow_log x : 0 < x -> pow10 (log10 x) = x.
Proof.
  intro P. unfold pow10, log10. pose proof ln10. replace (ln x / ln 10 * ln 10) with (ln x) by (field; lra). apply exp_ln, P.
Qed.
Lemma log_lt x y : 0 < x -> x < y -> log10 x < log10 y.
Proof.
  intros P L. unfold log10. apply Rmult_lt_compat_r; [apply Rinv_0_lt_compat, ln10|]. apply ln_increasing; assumption.
Qed.
Lemma pow_le x y : x <= y -> pow10 x <= pow10 y.
Proof.
  intros [L|E]; [|rewrite E; lra]. left. apply exp_increasing. apply Rmult_lt_compat_r; [apply ln10|exact L].
Qed.

(** Without limits given, a plot asks only for cosines and energies the object
    covers, at most N*M of them, and starts at the first cosine. *)
Theorem c88_plot_inside erange crange N M es cs : 0 <= hd 0 erange -> hd 0 erange + 1 / 5 < last erange 0 ->
  hd 0 crange < last crange 0 ->
  plot_energies erange N = Ok es -> plot_cosines crange M = Ok cs ->
  (forall E, In E es -> hd 0 erange + 1 / 10 <= E <= last erange 0 - 1 / 10) /\
  (forall c, In c cs -> hd 0 crange <= c < last crange 0) /\
  List.length es = N /\ List.length cs = M.
Proof.
  intros P LE LC EE EC. unfold plot_energies in EE.
  set (lo := hd 0 erange + 1 / 10) in *. set (hi := last erange 0 - 1 / 10) in *.
  assert (LH : 0 < lo < hi) by (unfold lo, hi; lra).
  destruct (sampled (log10 lo) (log10 hi) N) as [l| |] eqn:S; cbn [obind] in EE; try discriminate. injection EE as <-.
  split; [|split; [|split]].
  - intros E H. apply in_map_iff in H as (x & <- & Hx).
    destruct (sampled_in _ _ _ _ x (log_lt lo hi ltac:(lra) ltac:(lra)) S Hx) as (A & B).
    split.
    + rewrite <- (pow_log lo) by lra. apply pow_le, A.
    + rewrite <- (pow_log hi) by lra. apply pow_le. lra.
  - intros c H. apply (sampled_in _ _ _ _ c LC EC H).
  - unfold sampled in S. destruct (Req_EM_T _ _); [discriminate|]. injection S as <-. rewrite !map_length, seq_length. reflexivity.
  - unfold plot_cosines, sampled in EC. destruct (Req_EM_T _ _); [discriminate|]. injection EC as <-.
    rewrite map_length, seq_length. reflexivity.
Qed.

(** A plot of a ratio asks for points both objects cover. *)
Theorem c88_ratio_inside e1 e2 c1 c2 N M es cs :
  0 <= hd 0 e1 -> Rmax (hd 0 e1) (hd 0 e2) + 1 / 5 < Rmin (last e1 0) (last e2 0) ->
  Rmax (hd 0 c1) (hd 0 c2) < Rmin (last c1 0) (last c2 0) ->
  ratio_energies e1 e2 N = Ok es -> ratio_cosines c1 c2 M = Ok cs ->
  (forall E, In E es -> (hd 0 e1 <= E <= last e1 0) /\ (hd 0 e2 <= E <= last e2 0)) /\
  (forall c, In c cs -> (hd 0 c1 <= c < last c1 0) /\ (hd 0 c2 <= c < last c2 0)).
Proof.
  intros P LE LC EE EC. unfold ratio_energies in EE.
  pose proof (Rmax_l (hd 0 e1) (hd 0 e2)). pose proof (Rmax_r (hd 0 e1) (hd 0 e2)).
  pose proof (Rmin_l (last e1 0) (last e2 0)). pose proof (Rmin_r (last e1 0) (last e2 0)).
  pose proof (Rmax_l (hd 0 c1) (hd 0 c2)). pose proof (Rmax_r (hd 0 c1) (hd 0 c2)).
  pose proof (Rmin_l (last c1 0) (last c2 0)). pose proof (Rmin_r (last c1 0) (last c2 0)).
  set (lo := Rmax (hd 0 e1) (hd 0 e2) + 1 / 10) in *. set (hi := Rmin (last e1 0) (last e2 0) - 1 / 10) in *.
  assert (LH : 0 < lo < hi) by (unfold lo, hi; lra).
  destruct (sampled (log10 lo) (log10 hi) N) as [l| |] eqn:S; cbn [obind] in EE; try discriminate. injection EE as <-.
  split.
  - intros E H'. apply in_map_iff in H' as (x & <- & Hx).
    destruct (sampled_in _ _ _ _ x (log_lt lo hi ltac:(lra) ltac:(lra)) S Hx) as (A & B).
    assert (lo <= pow10 x) by (rewrite <- (pow_log lo) by lra; apply pow_le, A).
    assert (pow10 x <= hi) by (rewrite <- (pow_log hi) by lra; apply pow_le; lra).
    unfold lo, hi in *. lra.
  - intros c H'. destruct (sampled_in _ _ _ _ c LC EC H'). lra.
Qed.

(** Refuted: when the cosines of the two objects do not overlap the ratio still
    asks, and none of the points is covered by both. *)
Theorem c88_ratio_disjoint_refuted c1 c2 M cs : last c1 0 < hd 0 c2 -> hd 0 c1 <= last c1 0 -> hd 0 c2 <= last c2 0 ->
  ratio_cosines c1 c2 M = Ok cs ->
  List.length cs = M /\ forall c, In c cs -> ~ (hd 0 c1 <= c <= last c1 0 /\ hd 0 c2 <= c <= last c2 0).
Proof.
  intros L L1 L2 E. unfold ratio_cosines, sampled in E. destruct (Req_EM_T _ _); [discriminate|]. injection E as <-.
  split; [rewrite map_length, seq_length; reflexivity|]. intros c _ (A & B). lra.
Qed.

(** Non-vacuity: the Pauli matrices, and a plot with two points. *)
Example c88_pauli :
  map (fun p => (re (generator 2 p 0 0)%nat, re (generator 2 p 0 1)%nat, im (generator 2 p 0 1)%nat, re (generator 2 p 1 1)%nat)) [0; 1; 2]%nat =
  [(1, 0, 0, 1); (0, 1, 0, 0); (0, 0, -1, 0)] /\
  re (generator 2 3 0 0)%nat = 1 /\ re (generator 2 3 1 1)%nat = -1 /\
  print_su 2 [1; 2; 3; 4] = Throw OtherExn.
Proof.
  split; [|split; [|split]].
  - cbn. repeat (f_equal; try (cbn; lra)).
  - cbn. replace (2 / ((1 + 1) * (1 + 1 - 1))) with 1 by field. rewrite sqrt_1. ring.
  - cbn. replace (2 / ((1 + 1) * (1 + 1 - 1))) with 1 by field. rewrite sqrt_1. ring.
  - apply c88_print_refuted; [lia|discriminate].
Qed.
Example c88_points : exists es cs, plot_energies [1; 10] 2 = Ok es /\ plot_cosines [-1; 0; 1] 2 = Ok cs /\ cs = [-1; 0].
Proof.
  eexists. eexists. unfold plot_energies, plot_cosines, sampled. cbn [hd last].
  destruct (Req_EM_T (log10 (10 - 1 / 10)) (log10 (1 + 1 / 10))) as [Q|Q].
  - exfalso. pose proof (log_lt (1 + 1 / 10) (10 - 1 / 10) ltac:(lra) ltac:(lra)). lra.
  - destruct (Req_EM_T 1 (-1)) as [Z|Z]; [lra|]. cbn [obind]. split; [reflexivity|]. split; [reflexivity|].
    cbn. f_equal; [lra|]. f_equal. lra.
Qed.

Print Assumptions c88_basis.
Print Assumptions c88_orthogonal.
Print Assumptions c88_traceless.
Print Assumptions c88_components.
Print Assumptions c88_print_refuted.
Print Assumptions c88_print_one.
Print Assumptions c88_print_hamiltonians_refuted.
Print Assumptions c88_print_state_refuted.
Print Assumptions c88_print_status_refuted.
Print Assumptions c88_get_state_refuted.
Print Assumptions c88_get_states.
Print Assumptions c88_other_energies_refuted.
Print Assumptions c88_plot_inside.
Print Assumptions c88_ratio_inside.
Print Assumptions c88_ratio_disjoint_refuted.
