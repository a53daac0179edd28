(** C58: flavour content between the nodes of an ensemble (nuSQUIDSAtm::EvalFlavor). *)
From Coq Require Import Reals List Arith Lia Lra Bool.
From Verif Require Import Err CMatrix FlavorModel FlavorProofs FlavorProps AtmEvalModel AtmEvalProofs.
Import ListNotations.
Open Scope R_scope.

Definition ready (o : eatm) : Prop := ea_ini o = Some true /\ ea_made o = true.
Definition sorted (o : eatm) : Prop :=
  increasing (ea_cos o) /\ increasing (ea_E o) /\ (2 <= length (ea_cos o))%nat /\ (2 <= length (ea_E o))%nat.

Lemma nonempty (l : list R) k : (S k <= length l)%nat -> l <> [].
Proof. intros H E. subst. cbn in H. lia. Qed.

Lemma inside l x : (2 <= length l)%nat -> within l x -> outside l x = Ok false.
Proof.
  intros L [A B]. rewrite outside_spec by (apply nonempty with 1%nat; lia). f_equal.
  apply orb_false_iff. split; apply rltb_false; assumption.
Qed.

Lemma not_inside l x : (2 <= length l)%nat -> ~ within l x -> outside l x = Ok true.
Proof.
  intros L N. rewrite outside_spec by (apply nonempty with 1%nat; lia). f_equal.
  apply orb_true_iff. destruct (Rlt_dec x (nth 0 l 0)); [left; apply rltb_true; assumption|].
  right. apply rltb_true. apply Rnot_le_lt. intro. apply N. split; lra.
Qed.

(** A point of the grid's area is evaluated: the two zenith nodes and the two energies used are neighbours that enclose
    it, and the value is the bilinear interpolation of the four states' contents, the projector being evolved over the
    length of the trajectory asked for times the mean part of their trajectories the two nodes have travelled. *)
Theorem c58_value ev n nr nf o flv costh enu rho shift : fits nr nf o -> ready o -> sorted o ->
  (flv < nf)%nat -> (rho < nr)%nat -> (rho <= 1)%nat -> within (ea_cos o) costh -> within (ea_E o) enu ->
  exists i j, bracket (ea_cos o) costh i /\ bracket (ea_E o) enu j /\
    let P := ev (ea_h0 o enu rho)
      ((track_length o costh + shift) * ((fraction o i + fraction o (S i)) / 2)) (proj_at o rho flv) in
    let u := (enu - nth j (ea_E o) 0) / (nth (S j) (ea_E o) 0 - nth j (ea_E o) 0) in
    let w := (costh - nth i (ea_cos o) 0) / (nth (S i) (ea_cos o) 0 - nth i (ea_cos o) 0) in
    eval_atm ev n o flv costh enu rho shift = Ok (
      (1 - w) * ((1 - u) * expect n P (rho_at o i j rho) + u * expect n P (rho_at o i (S j) rho)) +
      w * ((1 - u) * expect n P (rho_at o (S i) j rho) + u * expect n P (rho_at o (S i) (S j) rho))).
Proof.
  intros F [I M] (S1 & S2 & L1 & L2) Hf Hr R1 W1 W2.
  destruct (node_below_bracket _ _ S1 L1 W1) as (i & N1 & B1).
  destruct (node_below_bracket _ _ S2 L2 W2) as (j & N2 & B2).
  exists i, j. refine (conj B1 (conj B2 _)). cbv zeta.
  rewrite (eval_at ev n nr nf o F flv costh enu rho shift Hf Hr i j I M R1
    (inside _ _ L1 W1) (inside _ _ L2 W2) N1 N2 (proj1 B1) (proj1 B2)).
  reflexivity.
Qed.

Lemma eval_bilinear ev n nr nf o flv costh enu rho shift : fits nr nf o -> ready o -> sorted o ->
  (flv < nf)%nat -> (rho < nr)%nat -> (rho <= 1)%nat -> within (ea_cos o) costh -> within (ea_E o) enu ->
  exists i j, node_below (ea_cos o) costh = Ok i /\ node_below (ea_E o) enu = Ok j /\
    bracket (ea_cos o) costh i /\ bracket (ea_E o) enu j /\
    eval_atm ev n o flv costh enu rho shift = Ok (bilinear ev n o flv costh enu rho shift i j).
Proof.
  intros F [I M] (S1 & S2 & L1 & L2) Hf Hr R1 W1 W2.
  destruct (node_below_bracket _ _ S1 L1 W1) as (i & N1 & B1).
  destruct (node_below_bracket _ _ S2 L2 W2) as (j & N2 & B2).
  exists i, j. refine (conj N1 (conj N2 (conj B1 (conj B2 _)))).
  apply (eval_at ev n nr nf o F flv costh enu rho shift Hf Hr i j I M R1
    (inside _ _ L1 W1) (inside _ _ L2 W2) N1 N2 (proj1 B1) (proj1 B2)).
Qed.

(** The value lies between those of the two nodes, which lie between those of the two energies. *)
Theorem c58_between ev n nr nf o flv costh enu rho shift v : fits nr nf o -> ready o -> sorted o ->
  (flv < nf)%nat -> (rho < nr)%nat -> (rho <= 1)%nat -> within (ea_cos o) costh -> within (ea_E o) enu ->
  eval_atm ev n o flv costh enu rho shift = Ok v ->
  exists i j P vM vP, bracket (ea_cos o) costh i /\ bracket (ea_E o) enu j /\ between vM vP v /\
    between (expect n P (rho_at o i j rho)) (expect n P (rho_at o i (S j) rho)) vM /\
    between (expect n P (rho_at o (S i) j rho)) (expect n P (rho_at o (S i) (S j) rho)) vP.
Proof.
  intros F Rd S Hf Hr R1 W1 W2 E.
  destruct (eval_bilinear ev n nr nf o flv costh enu rho shift F Rd S Hf Hr R1 W1 W2) as (i & j & _ & _ & B1 & B2 & V).
  rewrite V in E. injection E as <-. destruct S as (S1 & S2 & _ & _).
  exists i, j. do 3 eexists. refine (conj B1 (conj B2 _)). unfold bilinear, corner.
  split; [|split].
  - apply mix_between, weight_unit; assumption.
  - apply mix_between, weight_unit; assumption.
  - apply mix_between, weight_unit; assumption.
Qed.

(** Whatever is not ready or not on the grid is refused, and nothing else. *)
Theorem c58_refused ev n nr nf o flv costh enu rho shift b : fits nr nf o -> sorted o -> ea_ini o = Some b ->
  (flv < nf)%nat -> (rho < nr)%nat ->
  (eval_atm ev n o flv costh enu rho shift = Throw RuntimeError <->
   ~ (ready o /\ (rho <= 1)%nat /\ within (ea_cos o) costh /\ within (ea_E o) enu)).
Proof.
  intros F S I Hf Hr. destruct S as (S1 & S2 & L1 & L2). split.
  - intros E (R & R1 & W1 & W2).
    destruct (eval_bilinear ev n nr nf o flv costh enu rho shift F R (conj S1 (conj S2 (conj L1 L2))) Hf Hr R1 W1 W2)
      as (i & j & _ & _ & _ & _ & V). congruence.
  - intro N. unfold eval_atm. rewrite I. cbn [need obind]. destruct b; [|reflexivity]. cbn [negb].
    destruct (ea_made o) eqn:M; [|reflexivity]. cbn [negb].
    destruct (Nat.eqb rho 0 || Nat.eqb rho 1) eqn:R1; [|reflexivity]. cbn [negb].
    assert (R2 : (rho <= 1)%nat) by (apply orb_true_iff in R1; destruct R1 as [R1|R1]; apply Nat.eqb_eq in R1; lia).
    destruct (Rle_dec (nth 0 (ea_cos o) 0) costh) as [A|A];
      [|rewrite not_inside; [reflexivity|exact L1|intros [W _]; exact (A W)]].
    destruct (Rle_dec costh (nth (length (ea_cos o) - 1) (ea_cos o) 0)) as [B|B];
      [|rewrite not_inside; [reflexivity|exact L1|intros [_ W]; exact (B W)]].
    rewrite (inside _ _ L1 (conj A B)). cbn [obind].
    rewrite not_inside; [reflexivity|exact L2|].
    intro W. exact (N (conj (conj I M) (conj R2 (conj (conj A B) W)))).
Qed.

(** No evaluation of an ensemble with at least two zenith nodes and two energies touches memory it may not: also for
    arrays that are not sorted. *)
Theorem c58_safe ev n nr nf o flv costh enu rho shift : fits nr nf o -> ea_ini o <> None ->
  (2 <= length (ea_cos o))%nat -> (2 <= length (ea_E o))%nat -> (flv < nf)%nat -> (rho < nr)%nat ->
  eval_atm ev n o flv costh enu rho shift <> UB.
Proof.
  intros F I L1 L2 Hf Hr E. destruct (ea_ini o) as [[|]|] eqn:Hi; [| |congruence].
  2: { unfold eval_atm in E. rewrite Hi in E. discriminate E. }
  destruct (ea_made o) eqn:M. 2: { unfold eval_atm in E. rewrite Hi in E. cbn in E. rewrite M in E. discriminate E. }
  destruct (Nat.eqb rho 0 || Nat.eqb rho 1) eqn:R1.
  2: { unfold eval_atm in E. rewrite Hi in E. cbn in E. rewrite M in E. cbn in E. cbn in R1. rewrite R1 in E. discriminate E. }
  assert (R2 : (rho <= 1)%nat) by (apply orb_true_iff in R1; destruct R1 as [R1|R1]; apply Nat.eqb_eq in R1; lia).
  assert (O : forall l x, (2 <= length l)%nat -> outside l x = Ok true \/ outside l x = Ok false).
  { intros l x L. rewrite outside_spec by (apply nonempty with 1%nat; lia). destruct (rltb _ _ || rltb _ _); auto. }
  destruct (O _ costh L1) as [A|A].
  { unfold eval_atm in E. rewrite Hi in E. cbn [need obind negb] in E. rewrite M, R1, A in E. discriminate E. }
  destruct (O _ enu L2) as [B|B].
  { unfold eval_atm in E. rewrite Hi in E. cbn [need obind negb] in E. rewrite M, R1, A in E. cbn [negb obind] in E.
    rewrite B in E. discriminate E. }
  destruct (node_below_any (ea_cos o) costh L1) as [N1|(i & N1 & G1)].
  { unfold eval_atm in E. rewrite Hi in E. cbn [need obind negb] in E. rewrite M, R1, A in E. cbn [negb obind] in E.
    rewrite B, N1 in E. discriminate E. }
  destruct (node_below_any (ea_E o) enu L2) as [N2|(j & N2 & G2)].
  { unfold eval_atm in E. rewrite Hi in E. cbn [need obind negb] in E. rewrite M, R1, A in E. cbn [negb obind] in E.
    rewrite B, N1 in E. cbn [obind] in E. rewrite N2 in E. discriminate E. }
  rewrite (eval_at ev n nr nf o F flv costh enu rho shift Hf Hr i j Hi M R2 A B N1 N2 G1 G2) in E. discriminate E.
Qed.

(** At a node of both grids the value is the one the node itself reports (EvalFlavorAtNode), if the nodes' trajectories
    are those of their angles and all nodes have travelled the same part of theirs. *)
Theorem c58_node n nr nf o flv i j rho r : fits nr nf o -> ready o -> sorted o ->
  (flv < nf)%nat -> (rho < nr)%nat -> (rho <= 1)%nat -> (i < length (ea_cos o))%nat -> (j < length (ea_E o))%nat ->
  (forall k, (k < length (ea_cos o))%nat ->
     let d := nth k (ea_nodes o) dnode in
     en_len d <> 0 /\ en_len d = track_length o (nth k (ea_cos o) 0) /\ en_t d - en_t0 d = r * en_len d) ->
  let d := nth i (ea_nodes o) dnode in
  eval_atm evolve n o flv (nth i (ea_cos o) 0) (nth j (ea_E o) 0) rho 0 =
  Ok (eval_flavor n BInter (ea_h0 o (nth j (ea_E o) 0) rho) (en_t d) (en_t0 d) (proj_at o rho)
        (rho_at o i j rho) flv).
Proof.
  intros F Rd S Hf Hr R1 Hi Hj T d. destruct S as (S1 & S2 & L1 & L2).
  assert (W : forall l k, increasing l -> (k < length l)%nat -> within l (nth k l 0)).
  { intros l k Sl Hk. split.
    - destruct k; [lra|]. left. apply Sl; lia.
    - destruct (Nat.eq_dec k (length l - 1)) as [->|N]; [lra|]. left. apply Sl; lia. }
  rewrite (eval_at evolve n nr nf o F flv _ _ rho 0 Hf Hr (Nat.pred i) (Nat.pred j) (proj1 Rd) (proj2 Rd) R1
    (inside _ _ L1 (W _ _ S1 Hi)) (inside _ _ L2 (W _ _ S2 Hj)) (node_below_at _ _ S1 Hi) (node_below_at _ _ S2 Hj))
    by lia.
  f_equal. unfold bilinear, corner.
  assert (P : turned_proj evolve o flv (nth i (ea_cos o) 0) (nth j (ea_E o) 0) rho 0 (Nat.pred i) =
    evolve (ea_h0 o (nth j (ea_E o) 0) rho) (en_t d - en_t0 d) (proj_at o rho flv)).
  { unfold turned_proj. f_equal.
    assert (Q : forall k, (k < length (ea_cos o))%nat -> fraction o k = r).
    { intros k Hk. destruct (T k Hk) as (A & _ & B). unfold fraction. rewrite B. field. exact A. }
    rewrite !Q by lia. destruct (T i Hi) as (_ & A & B). fold d in A, B. rewrite B, A. field. }
  rewrite P. cbn [eval_flavor].
  assert (M : forall l k (f : nat -> R), increasing l -> (2 <= length l)%nat -> (k < length l)%nat ->
    mix (weight l (nth k l 0) (Nat.pred k)) (f (Nat.pred k)) (f (S (Nat.pred k))) = f k).
  { intros l k f Sl Ll Hk. unfold mix, weight. destruct k as [|k]; cbn [Nat.pred].
    - pose proof (Sl 0 1 ltac:(lia) ltac:(lia))%nat. field. lra.
    - pose proof (Sl k (S k) ltac:(lia) ltac:(lia))%nat. field. lra. }
  rewrite (M (ea_E o) j (fun b => expect n _ (rho_at o (Nat.pred i) b rho)) S2 L2 Hj).
  rewrite (M (ea_E o) j (fun b => expect n _ (rho_at o (S (Nat.pred i)) b rho)) S2 L2 Hj).
  exact (M (ea_cos o) i (fun a => expect n _ (rho_at o a j rho)) S1 L1 Hi).
Qed.

(** The flavours add up to the interpolation of the total number of neutrinos of the four states. *)
Theorem c58_total n nr o th dl order nt costh enu rho shift v : fits nr n o -> ready o -> sorted o ->
  pairs_ok n order -> (forall k, (k < n)%nat -> proj_at o rho k = b1_proj n th dl order nt rho k) ->
  (rho < nr)%nat -> (rho <= 1)%nat -> within (ea_cos o) costh -> within (ea_E o) enu ->
  (forall k, (k < n)%nat -> eval_atm evolve n o k costh enu rho shift = Ok (v k)) ->
  exists i j, bracket (ea_cos o) costh i /\ bracket (ea_E o) enu j /\
    let total a b := re (trace n (rho_at o a b rho)) in
    rsum n v = mix (weight (ea_cos o) costh i)
      (mix (weight (ea_E o) enu j) (total i j) (total i (S j)))
      (mix (weight (ea_E o) enu j) (total (S i) j) (total (S i) (S j))).
Proof.
  intros F Rd S O HP Hr R1 W1 W2 V. destruct S as (S1 & S2 & L1 & L2).
  destruct (node_below_bracket _ _ S1 L1 W1) as (i & N1 & B1).
  destruct (node_below_bracket _ _ S2 L2 W2) as (j & N2 & B2).
  exists i, j. refine (conj B1 (conj B2 _)). cbv zeta.
  set (T := (track_length o costh + shift) * ((fraction o i + fraction o (Datatypes.S i)) / 2)).
  set (H := ea_h0 o enu rho).
  assert (C : forall s, rsum n (fun k => expect n (evolve H T (b1_proj n th dl order nt rho k)) s) = re (trace n s)).
  { intro s. rewrite <- (eval_total n th dl order nt rho BInter H T 0 s O). apply rsum_ext. intros k _.
    cbn [eval_flavor]. rewrite Rminus_0_r. reflexivity. }
  rewrite (rsum_ext n v (fun k => bilinear evolve n o k costh enu rho shift i j)).
  2: { intros k Hk. specialize (V k Hk).
    rewrite (eval_at evolve n nr n o F k costh enu rho shift Hk Hr i j (proj1 Rd) (proj2 Rd) R1
      (inside _ _ L1 W1) (inside _ _ L2 W2) N1 N2 (proj1 B1) (proj1 B2)) in V. congruence. }
  unfold bilinear, corner, turned_proj. fold T H.
  set (w := weight (ea_cos o) costh i). set (u := weight (ea_E o) enu j).
  assert (Q : forall a b w, rsum n (fun k => mix w (a k) (b k)) = mix w (rsum n a) (rsum n b)).
  { intros a b x. unfold mix. rewrite rsum_plus, !rsum_scal. reflexivity. }
  rewrite (rsum_ext n _ (fun k => mix w
    (mix u (expect n (evolve H T (b1_proj n th dl order nt rho k)) (rho_at o i j rho))
           (expect n (evolve H T (b1_proj n th dl order nt rho k)) (rho_at o i (Datatypes.S j) rho)))
    (mix u (expect n (evolve H T (b1_proj n th dl order nt rho k)) (rho_at o (Datatypes.S i) j rho))
           (expect n (evolve H T (b1_proj n th dl order nt rho k)) (rho_at o (Datatypes.S i) (Datatypes.S j) rho)))))
    by (intros k Hk; rewrite HP by exact Hk; reflexivity).
  rewrite Q, !Q, !C. reflexivity.
Qed.

(** No flavour is found a negative number of times if the states are those of ensembles of neutrinos. *)
Theorem c58_nonnegative n nr o th dl order nt costh enu rho shift k v : fits nr n o -> ready o -> sorted o ->
  pairs_ok n order -> proj_at o rho k = b1_proj n th dl order nt rho k -> (k < n)%nat ->
  (rho < nr)%nat -> (rho <= 1)%nat -> within (ea_cos o) costh -> within (ea_E o) enu ->
  (forall a b x, 0 <= expect n (outer x) (rho_at o a b rho)) ->
  eval_atm evolve n o k costh enu rho shift = Ok v -> 0 <= v.
Proof.
  intros F Rd S O HP Hk Hr R1 W1 W2 Pos V.
  destruct (eval_bilinear evolve n nr n o k costh enu rho shift F Rd S Hk Hr R1 W1 W2)
    as (i & j & _ & _ & B1 & B2 & E).
  rewrite E in V. injection V as <-. destruct S as (S1 & S2 & _ & _).
  assert (C : forall a b, 0 <= corner evolve n o k costh enu rho shift i a b).
  { intros a b. unfold corner, turned_proj. rewrite HP.
    pose proof (mixing_unitary n th (fixed_phases nt rho dl) order O) as U.
    pose proof (frame_evolve n (ea_h0 o enu rho)
      ((track_length o costh + shift) * ((fraction o i + fraction o (Datatypes.S i)) / 2)) _ _
      (frame_b1 n th dl order nt rho)) as Fr.
    rewrite (expect_meq n _ _ (rho_at o a b rho) (rho_at o a b rho) (Fr k Hk) (meq_refl n _)). apply Pos. }
  apply mix_pos; [apply weight_unit; assumption| |]; apply mix_pos; try (apply weight_unit; assumption); apply C.
Qed.

(** In vacuum the states of the interaction picture stay as they were set.  The value between the nodes is then exact:
    what a neutrino of the very energy and angle asked for would show at the end of its trajectory, had it started with
    the interpolated flux. *)
Theorem c58_vacuum_exact n nr o th dl order nt b (flux : nat -> nat -> nat -> R) costh enu rho k :
  fits nr n o -> ready o -> sorted o -> 
  (forall f, (f < n)%nat -> proj_at o rho f = b1_proj n th dl order nt rho f) -> (k < n)%nat ->
  (rho < nr)%nat -> (rho <= 1)%nat -> within (ea_cos o) costh -> within (ea_E o) enu ->
  (forall a, (a < length (ea_cos o))%nat -> fraction o a = 1) ->
  (forall a e, (a < length (ea_cos o))%nat -> (e < length (ea_E o))%nat ->
     rho_at o a e rho = ini_state n b (b1_proj n th dl order nt rho) (flux a e)) ->
  exists i j, bracket (ea_cos o) costh i /\ bracket (ea_E o) enu j /\
    let here f := mix (weight (ea_cos o) costh i)
      (mix (weight (ea_E o) enu j) (flux i j f) (flux i (S j) f))
      (mix (weight (ea_E o) enu j) (flux (S i) j f) (flux (S i) (S j) f)) in
    eval_atm evolve n o k costh enu rho 0 =
    Ok (eval_flavor n BInter (ea_h0 o enu rho) (track_length o costh) 0 (b1_proj n th dl order nt rho)
          (ini_state n b (b1_proj n th dl order nt rho) here) k).
Proof.
  intros F Rd S HP Hk Hr R1 W1 W2 Fin Ini.
  destruct (eval_bilinear evolve n nr n o k costh enu rho 0 F Rd S Hk Hr R1 W1 W2)
    as (i & j & _ & _ & B1 & B2 & E).
  exists i, j. refine (conj B1 (conj B2 _)). cbv zeta. rewrite E. f_equal. clear E.
  destruct B1 as [G1 _], B2 as [G2 _].
  unfold bilinear, corner, turned_proj. rewrite !Fin by lia. rewrite HP by exact Hk.
  rewrite !Ini by lia. cbn [eval_flavor].
  replace ((track_length o costh + 0) * ((1 + 1) / 2)) with (track_length o costh - 0) by field.
  set (A := evolve _ _ _). unfold ini_state.
  set (Q := fun f => match b with BFlavor => b1_proj n th dl order nt rho f | _ => b0_proj f end).
  assert (L : forall v, expect n A (msum n (fun f => mscale (v f) (Q f))) = rsum n (fun f => v f * expect n A (Q f))).
  { intro v. rewrite expect_flip, expect_msum. apply rsum_ext. intros f _. rewrite expect_flip. unfold expect.
    rewrite (trace_meq n _ _ (mmult_scale_r n (v f) (Q f) A)), trace_scale. cbn. ring. }
  change (fun j0 => mscale ?g (match b with BFlavor => ?p | _ => ?q end)) with (fun f => mscale g (Q f)).
  unfold Q in L. cbv beta in L. rewrite !L.
  unfold mix. rewrite <- !rsum_scal, <- !rsum_plus, <- !rsum_scal, <- !rsum_plus. apply rsum_ext. intros f _. ring.
Qed.

(** ** Concrete ensembles *)
(** maximal mixing of two flavours *)
Definition ex_proj (k : nat) : mat := b1_proj 2 (fun _ _ => PI / 4) (fun _ _ => 0) [(0, 1)%nat] Neutrino 0 k.
(** no flux at the lower energy, the first flavour only at the higher one *)
Definition ex_flux (a e f : nat) : R := match e, f with S O, O => INR (S a) | _, _ => 0 end.
Definition ex_node (t : R) (a : nat) : enode :=
  ENode t 0 1 [[ini_state 2 BFlavor ex_proj (ex_flux a 0)]; [ini_state 2 BFlavor ex_proj (ex_flux a 1)]].
Definition ex_atm (osc : bool) (t1 t2 : R) : eatm :=
  EAtm (Some true) true [-1; 1] [1; 4] [ex_node t1 0; ex_node t2 1] (Some (fun _ => 1))
    (fun E _ => h0 2 osc (fun _ => 2 * PI) E) [[ex_proj 0; ex_proj 1]].

Lemma ex_fits osc t1 t2 : fits 1 2 (ex_atm osc t1 t2).
Proof.
  constructor; cbn; try reflexivity; try discriminate.
  - intros nd [<-|[<-|[]]]; reflexivity.
  - intros nd r [<-|[<-|[]]] Hr; cbn in Hr; destruct Hr as [<-|[<-|[]]]; reflexivity.
  - intros r [<-|[]]. reflexivity.
Qed.

Lemma ex_ready osc t1 t2 : ready (ex_atm osc t1 t2).
Proof. split; reflexivity. Qed.

Lemma pair_sorted (a b : R) : a < b -> increasing [a; b].
Proof.
  intros H i j Hij Hj. cbn in Hj. assert (i = 0%nat) by lia. assert (j = 1%nat) by lia. subst. exact H.
Qed.

Lemma ex_sorted osc t1 t2 : sorted (ex_atm osc t1 t2).
Proof.
  repeat apply conj; cbn [ex_atm ea_cos ea_E length]; try lia; apply pair_sorted; lra.
Qed.

Lemma ex_pairs : pairs_ok 2 [(0, 1)%nat].
Proof. repeat constructor; cbn; lia. Qed.

Lemma ex_within osc t1 t2 : within (ea_cos (ex_atm osc t1 t2)) 0 /\ within (ea_E (ex_atm osc t1 t2)) 2.
Proof. unfold within. cbn. lra. Qed.

Example c58_value_nonvacuous : exists i j, bracket [-1; 1] 0 i /\ bracket [1; 4] 2 j /\
  exists v, eval_atm evolve 2 (ex_atm true 1 1) 0 0 2 0 0 = Ok v.
Proof.
  destruct (c58_value evolve 2 1 2 (ex_atm true 1 1) 0 0 2 0 0 (ex_fits _ _ _) (ex_ready _ _ _) (ex_sorted _ _ _)
    ltac:(lia) ltac:(lia) ltac:(lia) (proj1 (ex_within _ _ _)) (proj2 (ex_within _ _ _))) as (i & j & A & B & E).
  exists i, j. refine (conj A (conj B (ex_intro _ _ E))).
Qed.

Example c58_between_nonvacuous : exists v, eval_atm evolve 2 (ex_atm true 1 1) 1 0 2 0 0 = Ok v /\
  exists vM vP, between vM vP v.
Proof.
  destruct (c58_value evolve 2 1 2 (ex_atm true 1 1) 1 0 2 0 0 (ex_fits _ _ _) (ex_ready _ _ _) (ex_sorted _ _ _)
    ltac:(lia) ltac:(lia) ltac:(lia) (proj1 (ex_within _ _ _)) (proj2 (ex_within _ _ _))) as (i & j & _ & _ & E).
  eexists. split; [exact E|].
  destruct (c58_between evolve 2 1 2 (ex_atm true 1 1) 1 0 2 0 0 _ (ex_fits _ _ _) (ex_ready _ _ _) (ex_sorted _ _ _)
    ltac:(lia) ltac:(lia) ltac:(lia) (proj1 (ex_within _ _ _)) (proj2 (ex_within _ _ _)) E)
    as (i' & j' & P & vM & vP & _ & _ & B & _). exists vM, vP. exact B.
Qed.

Example c58_refused_nonvacuous : eval_atm evolve 2 (ex_atm true 1 1) 0 (3 / 2) 2 0 0 = Throw RuntimeError /\
  eval_atm evolve 2 (ex_atm true 1 1) 0 0 5 0 0 = Throw RuntimeError.
Proof.
  split; apply (c58_refused evolve 2 1 2 (ex_atm true 1 1) _ _ _ 0 0 true (ex_fits _ _ _) (ex_sorted _ _ _) eq_refl);
    try lia; intros (_ & _ & W1 & W2); unfold within in *; cbn in W1, W2; lra.
Qed.

Example c58_safe_nonvacuous : eval_atm evolve 2 (ex_atm true 1 1) 1 (3 / 2) 2 0 0 <> UB.
Proof. apply (c58_safe evolve 2 1 2 _ _ _ _ _ _ (ex_fits _ _ _)); cbn; try lia. discriminate. Qed.

Example c58_node_nonvacuous :
  eval_atm evolve 2 (ex_atm true 1 1) 0 1 4 0 0 =
  Ok (eval_flavor 2 BInter (h0 2 true (fun _ => 2 * PI) 4) 1 0 ex_proj (ini_state 2 BFlavor ex_proj (ex_flux 1 1)) 0).
Proof.
  refine (c58_node 2 1 2 (ex_atm true 1 1) 0 1 1 0 1 (ex_fits _ _ _) (ex_ready _ _ _) (ex_sorted _ _ _) _ _ _ _ _ _);
    cbn [ex_atm ea_cos ea_E length]; try lia.
  intros k Hk. cbn. destruct k as [|[|k]]; [| |lia]; cbn; lra.
Qed.

Lemma ex_positive a b x : 0 <= expect 2 (outer x) (rho_at (ex_atm true 1 1) a b 0).
Proof.
  assert (P0 : forall x, expect 2 (outer x) mzero = 0).
  { intro y. unfold expect. replace (trace 2 _) with c0; [reflexivity|]. symmetry. apply csum_zero. intros i _.
    apply csum_zero. intros j _. unfold mzero. ring. }
  assert (Q : forall v, (forall f, 0 <= v f) -> 0 <= expect 2 (outer x) (ini_state 2 BFlavor ex_proj v)).
  { intros v Hv. unfold ini_state. rewrite expect_flip, expect_msum. apply rsum_pos. intros f Hf.
    rewrite expect_flip. unfold expect.
    rewrite (trace_meq 2 _ _ (mmult_scale_r 2 (v f) (ex_proj f) (outer x))), trace_scale.
    assert (E : 0 <= expect 2 (outer x) (ex_proj f)).
    { unfold ex_proj. rewrite (expect_meq 2 _ _ _ _ (meq_refl 2 (outer x))
        (frame_b1 2 (fun _ _ => PI / 4) (fun _ _ => 0) [(0, 1)%nat] Neutrino 0 f Hf)).
      unfold expect. rewrite trace_outer. apply cnorm2_pos. }
    unfold expect in E. pose proof (Hv f). cbn [cmult rtc re im]. nra. }
  unfold rho_at. destruct a as [|[|a]]; cbn [nth ex_atm ea_nodes ex_node en_rho].
  - destruct b as [|[|b]]; cbn [nth]; [apply Q|apply Q|].
    + intros [|f]; cbn; lra.
    + intros [|f]; cbn; lra.
    + destruct b; apply Req_le, eq_sym, P0.
  - destruct b as [|[|b]]; cbn [nth]; [apply Q|apply Q|].
    + intros [|f]; cbn; lra.
    + intros [|f]; cbn; lra.
    + destruct b; apply Req_le, eq_sym, P0.
  - destruct a;
    (destruct b; apply Req_le, eq_sym, P0).
Qed.

Example c58_total_nonvacuous : exists v, (forall k, (k < 2)%nat -> eval_atm evolve 2 (ex_atm true 1 1) k 0 2 0 0 = Ok (v k)) /\
  rsum 2 v = 1 / 2.
Proof.
  assert (V : forall k, (k < 2)%nat -> exists v, eval_atm evolve 2 (ex_atm true 1 1) k 0 2 0 0 = Ok v).
  { intros k Hk. destruct (c58_value evolve 2 1 2 (ex_atm true 1 1) k 0 2 0 0 (ex_fits _ _ _) (ex_ready _ _ _)
      (ex_sorted _ _ _) Hk ltac:(lia) ltac:(lia) (proj1 (ex_within _ _ _)) (proj2 (ex_within _ _ _)))
      as (i & j & _ & _ & E). eexists. exact E. }
  destruct (V 0%nat ltac:(lia)) as [v0 E0]. destruct (V 1%nat ltac:(lia)) as [v1 E1].
  exists (fun k => match k with O => v0 | _ => v1 end).
  assert (A : forall k, (k < 2)%nat -> eval_atm evolve 2 (ex_atm true 1 1) k 0 2 0 0 =
    Ok (match k with O => v0 | _ => v1 end)).
  { intros [|[|k]] Hk; [exact E0|exact E1|lia]. }
  split; [exact A|].
  destruct (c58_total 2 1 (ex_atm true 1 1) (fun _ _ => PI / 4) (fun _ _ => 0) [(0, 1)%nat] Neutrino 0 2 0 0
    (fun k => match k with O => v0 | _ => v1 end) (ex_fits _ _ _) (ex_ready _ _ _) (ex_sorted _ _ _) ex_pairs)
    as (i & j & B1 & B2 & E); try lia; try exact A.
  - intros [|[|k]] Hk; [reflexivity|reflexivity|lia].
  - apply ex_within.
  - apply ex_within.
  - rewrite E. destruct B1 as [G1 _], B2 as [G2 _]. cbn in G1, G2.
    assert (i = 0%nat) by lia. assert (j = 0%nat) by lia. subst.
    assert (T : forall v, re (trace 2 (ini_state 2 BFlavor ex_proj v)) = rsum 2 v).
    { intro v. apply (ini_trace 2 _ _ v (mixing_unitary 2 _ (fixed_phases Neutrino 0 (fun _ _ => 0)) _ ex_pairs)
        (frame_b1 2 (fun _ _ => PI / 4) (fun _ _ => 0) [(0, 1)%nat] Neutrino 0)). }
    unfold rho_at. cbn [nth ex_atm ea_nodes ex_node en_rho]. rewrite !T. unfold mix, weight. cbn. field.
Qed.

Example c58_nonnegative_nonvacuous v : eval_atm evolve 2 (ex_atm true 1 1) 1 0 2 0 0 = Ok v -> 0 <= v.
Proof.
  apply (c58_nonnegative 2 1 (ex_atm true 1 1) (fun _ _ => PI / 4) (fun _ _ => 0) [(0, 1)%nat] Neutrino 0 2 0 0 1 v
    (ex_fits _ _ _) (ex_ready _ _ _) (ex_sorted _ _ _) ex_pairs eq_refl); try lia; try apply ex_within.
  apply ex_positive.
Qed.

Example c58_vacuum_exact_nonvacuous : exists v, eval_atm evolve 2 (ex_atm true 1 1) 1 0 2 0 0 =
  Ok (eval_flavor 2 BInter (h0 2 true (fun _ => 2 * PI) 2) 1 0 ex_proj (ini_state 2 BFlavor ex_proj v) 1).
Proof.
  destruct (c58_vacuum_exact 2 1 (ex_atm true 1 1) (fun _ _ => PI / 4) (fun _ _ => 0) [(0, 1)%nat] Neutrino BFlavor
    ex_flux 0 2 0 1 (ex_fits _ _ _) (ex_ready _ _ _) (ex_sorted _ _ _)) as (i & j & _ & _ & E); try lia; try apply ex_within.
  - intros [|[|k]] Hk; [reflexivity|reflexivity|lia].
  - intros [|[|k]] Hk; cbn in Hk; [| |lia]; unfold fraction; cbn; field.
  - intros [|[|a]] [|[|e]] Ha He; cbn in Ha, He; try lia; reflexivity.
  - eexists. exact E.
Qed.

(** ** What is documented or hoped for and does not hold *)
Lemma no_oscillations E t A : meq 2 (evolve (h0 2 false (fun _ => 2 * PI) E) t A) A.
Proof.
  intros a b _ _. unfold evolve, h0, mzero. cbn [re c0]. replace ((0 - 0) * t) with 0 by ring. rewrite cexp_0. ring.
Qed.

(** "Bilinear interpolation is done in the logarithm of the energy": it is done in the energy itself. *)
Theorem c58_log_energy_refuted : exists o v, fits 1 2 o /\ ready o /\ sorted o /\
  bracket (ea_cos o) 0 0 /\ bracket (ea_E o) 2 0 /\
  eval_atm evolve 2 o 0 0 2 0 0 = Ok v /\
  let u := (ln 2 - ln (nth 0 (ea_E o) 0)) / (ln (nth 1 (ea_E o) 0) - ln (nth 0 (ea_E o) 0)) in
  let at_corner i j := expect 2 (proj_at o 0 0) (rho_at o i j 0) in
  (forall t, meq 2 (evolve (ea_h0 o 2 0) t (proj_at o 0 0)) (proj_at o 0 0)) /\
  v <> mix (weight (ea_cos o) 0 0) (mix u (at_corner 0 0)%nat (at_corner 0 1)%nat)
                                   (mix u (at_corner 1 0)%nat (at_corner 1 1)%nat).
Proof.
  destruct (c58_value evolve 2 1 2 (ex_atm false 1 1) 0 0 2 0 0 (ex_fits _ _ _) (ex_ready _ _ _) (ex_sorted _ _ _)
    ltac:(lia) ltac:(lia) ltac:(lia) (proj1 (ex_within _ _ _)) (proj2 (ex_within _ _ _))) as (i & j & A & B & E).
  pose proof (proj1 A) as G1. pose proof (proj1 B) as G2. cbn in G1, G2.
  assert (i = 0%nat) by lia. assert (j = 0%nat) by lia. subst.
  exists (ex_atm false 1 1). eexists.
  refine (conj (ex_fits _ _ _) (conj (ex_ready _ _ _) (conj (ex_sorted _ _ _) (conj A (conj B (conj E (conj _ _))))))).
  - intro t. apply no_oscillations.
  - cbv zeta.
    assert (C : forall t s, expect 2 (evolve (ea_h0 (ex_atm false 1 1) 2 0) t (proj_at (ex_atm false 1 1) 0 0)) s =
      expect 2 (proj_at (ex_atm false 1 1) 0 0) s).
    { intros t s. apply expect_meq; [apply no_oscillations|apply meq_refl]. }
    rewrite !C.
    assert (T : forall v, expect 2 (ex_proj 0) (ini_state 2 BFlavor ex_proj v) = v 0%nat).
    { intro v. pose proof (c55_flavor_readback 2 (fun _ _ => PI / 4) (fun _ _ => 0) [(0, 1)%nat] Neutrino 0 BMass mzero
        0 v 0 ex_pairs ltac:(lia)) as Q. exact Q. }
    change (proj_at (ex_atm false 1 1) 0 0) with (ex_proj 0).
    unfold rho_at. cbn [nth ex_atm ea_nodes ex_node en_rho ea_E ea_cos]. rewrite !T. cbn [ex_flux INR].
    rewrite ln_1. replace (ln 4) with (2 * ln 2).
    2: { replace 4 with (2 * 2) by ring. rewrite ln_mult by lra. ring. }
    assert (L : 0 < ln 2) by (rewrite <- ln_1; apply ln_increasing; lra).
    replace ((ln 2 - 0) / (2 * ln 2 - 0)) with (1 / 2) by (field; lra).
    unfold mix, weight. cbn [nth]. lra.
Qed.

(** A node that has travelled another part of its trajectory than its neighbour does not show its own content. *)
Theorem c58_unequal_travel_refuted : exists o i j flv, fits 1 2 o /\ ready o /\ sorted o /\
  (forall k, (k < 2)%nat -> let d := nth k (ea_nodes o) dnode in en_len d = track_length o (nth k (ea_cos o) 0)) /\
  let d := nth i (ea_nodes o) dnode in
  exists v, eval_atm evolve 2 o flv (nth i (ea_cos o) 0) (nth j (ea_E o) 0) 0 0 = Ok v /\
    v <> eval_flavor 2 BInter (ea_h0 o (nth j (ea_E o) 0) 0) (en_t d) (en_t0 d) (proj_at o 0) (rho_at o i j 0) flv.
Proof.
  exists (ex_atm true 0 4), 1%nat, 1%nat, 0%nat.
  refine (conj (ex_fits _ _ _) (conj (ex_ready _ _ _) (conj (ex_sorted _ _ _) (conj _ _)))).
  { intros [|[|k]] Hk; [reflexivity|reflexivity|lia]. }
  cbv zeta. eexists. split.
  - apply (eval_at evolve 2 1 2 _ (ex_fits true 0 4) 0 1 4 0 0 ltac:(lia) ltac:(lia) 0 0 eq_refl eq_refl ltac:(lia)).
    + apply inside; [cbn; lia|unfold within; cbn; lra].
    + apply inside; [cbn; lia|unfold within; cbn; lra].
    + apply (node_below_at [-1; 1] 1); [apply pair_sorted; lra|cbn; lia].
    + apply (node_below_at [1; 4] 1); [apply pair_sorted; lra|cbn; lia].
    + cbn. lia.
    + cbn. lia.
  - unfold bilinear, corner, turned_proj, fraction.
    cbn [nth ex_atm ea_nodes ex_node en_rho ea_E ea_cos ea_h0 ea_earth track_length en_t en_t0 en_len eval_flavor].
    unfold rho_at, proj_at. cbn [nth ex_atm ea_nodes ex_node en_rho ea_proj ea_E ea_cos].
    set (H := h0 2 true (fun _ => 2 * PI) 4). unfold mix, weight. cbn [nth].
    replace ((4 - 1) / (4 - 1)) with 1 by field. replace ((1 - -1) / (1 - -1)) with 1 by field.
    replace ((1 + 0) * (((0 - 0) / 1 + (4 - 0) / 1) / 2)) with (2 - 0) by field.
    assert (Q : forall t v, expect 2 (evolve H (t - 0) (ex_proj 0)) (ini_state 2 BFlavor ex_proj v) =
      eval_flavor 2 BInter H t 0 ex_proj (ini_state 2 BFlavor ex_proj v) 0) by reflexivity.
    rewrite !Q.
    assert (X : forall t, eval_flavor 2 BInter H t 0 ex_proj (ini_state 2 BFlavor ex_proj (ex_flux 1 1)) 0 =
      1 + cos (PI / 4 * t)).
    { intro t. etransitivity; [exact (c55_vacuum_probability 2 (fun _ _ => PI / 4) (fun _ _ => 0) [(0, 1)%nat] Neutrino 0 true (fun _ => 2 * PI)
        4 t 0 (ex_flux 1 1) 0 ex_pairs ltac:(lia) ltac:(lra))|].
      unfold osc_prob. cbn [rsum csum mixing ex_flux INR fixed_phases splitting].
      assert (V0 : mmult 2 (rot 0 1 (PI / 4) 0) mid 0%nat 0%nat = rtc (cos (PI / 4))) by (cbn; apply Ceq; cbn; ring).
      assert (V1 : mmult 2 (rot 0 1 (PI / 4) 0) mid 1%nat 0%nat = rtc (- sin (PI / 4))).
      { cbn. unfold cexp. rewrite sin_0, cos_0. apply Ceq; cbn; ring. }
      rewrite V0, V1, cos_PI4, sin_PI4.
      assert (S2 : 1 / sqrt 2 * (1 / sqrt 2) = 1 / 2).
      { replace (1 / 2) with (1 / (sqrt 2 * sqrt 2)) by (rewrite sqrt_sqrt by lra; reflexivity). field.
        apply Rgt_not_eq, sqrt_lt_R0. lra. }
      replace (2 * PI / (2 * 4) * (t - 0)) with (PI / 4 * t) by field. rewrite Rmult_0_l, cexp_0.
      generalize dependent (1 / sqrt 2). intros q Hq. unfold cnorm2. cbn.
      pose proof (sin2_cos2 (PI / 4 * t)) as T. unfold Rsqr in T.
      set (c := cos (PI / 4 * t)) in *. set (s := sin (PI / 4 * t)) in *.
      ring_simplify. replace (q ^ 4) with (q * q * (q * q)) by ring. rewrite Hq. nra. }
    rewrite !X. replace (PI / 4 * 2) with (PI / 2) by field. replace (PI / 4 * 4) with PI by field.
    rewrite cos_PI2, cos_PI. lra.
Qed.

(** An ensemble of one zenith node cannot be evaluated at its angle: the node after it is read. *)
Definition one_angle : eatm :=
  EAtm (Some true) true [1] [1; 4] [ex_node 1 0] (Some (fun _ => 1))
    (fun E _ => h0 2 true (fun _ => 2 * PI) E) [[ex_proj 0; ex_proj 1]].
Definition one_energy : eatm :=
  EAtm (Some true) true [-1; 1] [1] [ENode 1 0 1 [[ex_proj 0]]; ENode 1 0 1 [[ex_proj 0]]] (Some (fun _ => 1))
    (fun E _ => h0 2 true (fun _ => 2 * PI) E) [[ex_proj 0; ex_proj 1]].

Lemma rltb_same x : rltb x x = false.
Proof. apply rltb_false. lra. Qed.

Lemma eval_start n o flv costh enu rho shift : ready o -> (rho <= 1)%nat ->
  outside (ea_cos o) costh = Ok false -> outside (ea_E o) enu = Ok false ->
  eval_atm evolve n o flv costh enu rho shift =
  obind (node_below (ea_cos o) costh) (fun m => obind (node_below (ea_E o) enu) (fun e =>
  obind (need (ea_earth o)) (fun track =>
  obind (need (nth_error (ea_nodes o) m)) (fun n1 => obind (need (nth_error (ea_nodes o) (S m))) (fun n2 =>
  obind (need (at2 (ea_proj o) rho flv)) (fun proj =>
  obind (need (nth_error (ea_E o) e)) (fun e1 => obind (need (nth_error (ea_E o) (S e))) (fun e2 =>
  obind (need (at2 (en_rho n1) e rho)) (fun s11 => obind (need (at2 (en_rho n1) (S e) rho)) (fun s12 =>
  obind (need (at2 (en_rho n2) e rho)) (fun s21 => obind (need (at2 (en_rho n2) (S e) rho)) (fun s22 =>
  obind (need (nth_error (ea_cos o) m)) (fun c1 => obind (need (nth_error (ea_cos o) (S m))) (fun c2 =>
  let P := evolve (ea_h0 o enu rho) (t_inter (track costh + shift) n1 n2) proj in
  let f2 := (enu - e1) / (e2 - e1) in
  let f1 := 1 - f2 in
  Ok (lin_inter costh c1 c2 (at_node n P f1 f2 s11 s12) (at_node n P f1 f2 s21 s22)))))))))))))))).
Proof.
  intros [I M] R1 O1 O2. unfold eval_atm. rewrite I. cbn [need obind negb]. rewrite M. cbn [negb].
  replace (Nat.eqb rho 0 || Nat.eqb rho 1) with true
    by (destruct rho as [|[|k]]; [reflexivity|reflexivity|lia]). cbn [negb].
  rewrite O1. cbn [obind]. rewrite O2. reflexivity.
Qed.

Lemma one_inside x : outside [x] x = Ok false.
Proof. unfold outside. cbn. rewrite rltb_same. reflexivity. Qed.

Lemma one_sorted (x : R) : increasing [x].
Proof. intros i j A B. cbn in B. lia. Qed.

Theorem c58_one_angle_refuted : exists o, fits 1 2 o /\ ready o /\
  within (ea_cos o) 1 /\ within (ea_E o) 2 /\ increasing (ea_cos o) /\ increasing (ea_E o) /\
  eval_atm evolve 2 o 0 1 2 0 0 = UB.
Proof.
  exists one_angle. repeat apply conj; try reflexivity; try (unfold within; cbn; lra).
  - constructor; cbn; try reflexivity; try discriminate.
    + intros nd [<-|[]]; reflexivity.
    + intros nd r [<-|[]] Hr; cbn in Hr; destruct Hr as [<-|[<-|[]]]; reflexivity.
    + intros r [<-|[]]. reflexivity.
  - apply one_sorted.
  - apply pair_sorted. lra.
  - rewrite eval_start; [|split; reflexivity|lia|apply one_inside|apply inside; [cbn; lia|unfold within; cbn; lra]].
    cbn [one_angle ea_cos ea_E].
    change (node_below [1] 1) with (node_below [1] (nth 0 [1] 0)).
    rewrite (node_below_at [1] 0 (one_sorted 1)) by (cbn; lia).
    destruct (node_below_bracket [1; 4] 2 (pair_sorted 1 4 ltac:(lra)) ltac:(cbn; lia) ltac:(unfold within; cbn; lra))
      as (j & N & _). cbn [obind Nat.pred one_angle ea_E]. rewrite N. reflexivity.
Qed.

(** Nor one of a single energy. *)
Theorem c58_one_energy_refuted : exists o, fits 1 2 o /\ ready o /\
  within (ea_cos o) 0 /\ within (ea_E o) 1 /\ increasing (ea_cos o) /\ increasing (ea_E o) /\
  eval_atm evolve 2 o 0 0 1 0 0 = UB.
Proof.
  exists one_energy. repeat apply conj; try reflexivity; try (unfold within; cbn; lra).
  - constructor; cbn; try reflexivity; try discriminate.
    + intros nd [<-|[<-|[]]]; reflexivity.
    + intros nd r [<-|[<-|[]]] Hr; cbn in Hr; destruct Hr as [<-|[]]; reflexivity.
    + intros r [<-|[]]. reflexivity.
  - apply pair_sorted. lra.
  - apply one_sorted.
  - rewrite eval_start; [|split; reflexivity|lia|apply inside; [cbn; lia|unfold within; cbn; lra]|apply one_inside].
    destruct (node_below_bracket [-1; 1] 0 (pair_sorted (-1) 1 ltac:(lra)) ltac:(cbn; lia) ltac:(unfold within; cbn; lra))
      as (j & N & G). cbn in G. assert (j = 0%nat) by (destruct G as [G _]; cbn in G; lia). subst j.
    cbn [one_energy ea_cos ea_E]. rewrite N.
    change (node_below [1] 1) with (node_below [1] (nth 0 [1] 0)).
    rewrite (node_below_at [1] 0 (one_sorted 1)) by (cbn; lia). reflexivity.
Qed.

(** The type of neutrino and the flavour are not checked against what the object has. *)
Theorem c58_index_refuted : exists o, fits 1 2 o /\ ready o /\ sorted o /\
  within (ea_cos o) 0 /\ within (ea_E o) 2 /\
  eval_atm evolve 2 o 0 0 2 1 0 = UB /\ eval_atm evolve 2 o 2 0 2 0 0 = UB.
Proof.
  exists (ex_atm true 1 1).
  refine (conj (ex_fits _ _ _) (conj (ex_ready _ _ _) (conj (ex_sorted _ _ _)
    (conj (proj1 (ex_within _ _ _)) (conj (proj2 (ex_within _ _ _)) _))))).
  destruct (node_below_bracket [-1; 1] 0 (pair_sorted (-1) 1 ltac:(lra)) ltac:(cbn; lia) ltac:(unfold within; cbn; lra))
    as (i & N1 & [G1 _]). cbn in G1. assert (i = 0%nat) by lia. subst i.
  destruct (node_below_bracket [1; 4] 2 (pair_sorted 1 4 ltac:(lra)) ltac:(cbn; lia) ltac:(unfold within; cbn; lra))
    as (j & N2 & [G2 _]). cbn in G2. assert (j = 0%nat) by lia. subst j.
  split; (rewrite eval_start; [|apply ex_ready|lia|apply inside; [cbn; lia|apply ex_within]
    |apply inside; [cbn; lia|apply ex_within]]); cbn [ex_atm ea_cos ea_E]; rewrite N1, N2; reflexivity.
Qed.

(** Zenith nodes given in decreasing order make every evaluation fail. *)
Theorem c58_decreasing_refuted ev n o flv costh enu rho shift : ready o ->
  ea_cos o <> [] -> nth (length (ea_cos o) - 1) (ea_cos o) 0 < nth 0 (ea_cos o) 0 ->
  eval_atm ev n o flv costh enu rho shift = Throw RuntimeError.
Proof.
  intros [I M] L D. unfold eval_atm. rewrite I. cbn [need obind negb]. rewrite M. cbn [negb].
  destruct (Nat.eqb rho 0 || Nat.eqb rho 1); [|reflexivity]. cbn [negb].
  rewrite outside_spec by exact L. cbn [obind].
  replace (rltb costh (nth 0 (ea_cos o) 0) || rltb (nth (length (ea_cos o) - 1) (ea_cos o) 0) costh) with true; [reflexivity|].
  symmetry. apply orb_true_iff. destruct (Rlt_dec costh (nth 0 (ea_cos o) 0)); [left|right]; apply rltb_true; lra.
Qed.

Example c58_decreasing_refuted_nonvacuous :
  let o := EAtm (Some true) true [1; -1] [1; 4] [ex_node 1 0; ex_node 1 1] (Some (fun _ => 1))
    (fun E _ => h0 2 true (fun _ => 2 * PI) E) [[ex_proj 0; ex_proj 1]] in
  eval_atm evolve 2 o 0 0 2 0 0 = Throw RuntimeError.
Proof. apply c58_decreasing_refuted; [split; reflexivity|discriminate|cbn; lra]. Qed.

Print Assumptions c58_value.
Print Assumptions c58_between.
Print Assumptions c58_refused.
Print Assumptions c58_safe.
Print Assumptions c58_node.
Print Assumptions c58_total.
Print Assumptions c58_nonnegative.
Print Assumptions c58_vacuum_exact.
Print Assumptions c58_log_energy_refuted.
Print Assumptions c58_unequal_travel_refuted.
Print Assumptions c58_one_angle_refuted.
Print Assumptions c58_one_energy_refuted.
Print Assumptions c58_index_refuted.
Print Assumptions c58_decreasing_refuted.
