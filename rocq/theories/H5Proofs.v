(** Lemmas on the HDF5 helpers. *)
From Coq Require Import List Arith ZArith Lia Bool String Permutation.
From Verif Require Import Err MarrayModel MarrayEditProofs H5Model.
Import ListNotations.

(* ------------------------------------------------------------------ *)
(** ** Handles *)
Definition own1 (lim : Z) (h : handle) : list (Z * nat) := if Z.leb lim (hid h) then match kind h with Some k => [(hid h, k)] | None => [] end else [].
Definition owned (lim : Z) (vs : list (nat * handle)) : list (Z * nat) := flat_map (fun p => own1 lim (snd p)) vs.
Lemma owned_perm lim a b : Permutation a b -> Permutation (owned lim a) (owned lim b).
Proof. intros H. unfold owned. now apply Permutation_flat_map. Qed.
Lemma find_del vs : forall v h, find_var vs v = Some h -> Permutation vs ((v, h) :: del_var vs v).
Proof.
  induction vs as [|[w g] r IH]; cbn; intros v h; [discriminate|]. destruct (Nat.eqb_spec v w) as [->|].
  - intros [= ->]. apply Permutation_refl.
  - intros H. rewrite perm_swap. constructor. now apply IH.
Qed.
Lemma set_del vs : forall v h g, find_var vs v = Some h -> Permutation (set_var vs v g) ((v, g) :: del_var vs v).
Proof.
  induction vs as [|[w g'] r IH]; cbn; intros v h g; [discriminate|]. destruct (Nat.eqb_spec v w) as [->|].
  - intros [= ->]. apply Permutation_refl.
  - intros H. rewrite perm_swap. constructor. now apply (IH v h).
Qed.
Lemma find_set_other vs : forall v u h, v <> u -> find_var (set_var vs v h) u = find_var vs u.
Proof.
  induction vs as [|[w g'] r IH]; cbn; intros v u h H; [reflexivity|]. destruct (Nat.eqb_spec v w) as [->|]; cbn.
  - destruct (Nat.eqb_spec u w); [congruence|reflexivity].
  - destruct (Nat.eqb_spec u w); [reflexivity|now apply IH].
Qed.
Lemma del_id_in os : forall id k, In (id, k) os -> exists o, del_id os id k = Some o /\ Permutation os ((id, k) :: o).
Proof.
  induction os as [|[i j] r IH]; cbn [In del_id]; intros id k H; [contradiction|].
  destruct (Z.eqb_spec i id) as [->|Hi]; destruct (Nat.eqb_spec j k) as [->|Hj]; cbn [andb].
  1: now exists r.
  all: destruct H as [H|H]; [exfalso; congruence|]; destruct (IH id k H) as (o & -> & Hp); eexists; split; [reflexivity|]; rewrite Hp; apply perm_swap.
Qed.
Lemma del_id_some os : forall id k o, del_id os id k = Some o -> In (id, k) os.
Proof.
  induction os as [|[i j] r IH]; cbn [In del_id]; intros id k o H; [discriminate|].
  destruct (Z.eqb_spec i id) as [->|Hi]; destruct (Nat.eqb_spec j k) as [->|Hj]; cbn [andb] in H; [now left| | |]; destruct (del_id r id k) eqn:E; try discriminate; right; now apply (IH _ _ _ E).
Qed.

(** [lim] is the least identifier the library issues: 0 for H5Handle, 1 for H5File. *)
Definition hinv (lim : Z) (s : hstate) : Prop :=
  Permutation (owned lim (vars s)) (opened s) /\ NoDup (map fst (opened s)) /\ Forall (fun p => (lim <= fst p)%Z) (opened s) /\
  Forall (fun p => (lim <= hid (snd p))%Z -> kind (snd p) <> None) (vars s) /\ Permutation (issued s) (closed s ++ opened s).
Lemma hinv_vars lim s vs : hinv lim s -> Permutation (owned lim vs) (owned lim (vars s)) -> Forall (fun p => (lim <= hid (snd p))%Z -> kind (snd p) <> None) vs -> hinv lim (with_vars s vs).
Proof. intros (H1 & H2 & H3 & H4 & H5) Hp Hk. unfold hinv, with_vars; cbn. repeat split; trivial. now rewrite Hp. Qed.
Lemma issue_inv lim s v id k : (0 <= lim)%Z -> (id < 0 \/ lim <= id)%Z -> may_issue s id = true -> hinv lim s -> (0 <= id)%Z -> hinv lim (with_vars (lib_issue s id k) ((v, Handle id (Some k)) :: vars (lib_issue s id k))).
Proof.
  intros Hl Hid Hm (H1 & H2 & H3 & H4 & H5) Hp. unfold lib_issue. destruct (Z.ltb_spec id 0); [lia|]. unfold hinv, with_vars; cbn.
  unfold own1; cbn. destruct (Z.leb_spec lim id); [|lia]. cbn. repeat split.
  - now constructor.
  - constructor; [|exact H2]. unfold may_issue in Hm. apply orb_true_iff in Hm as [Hm|Hm]; [apply Z.ltb_lt in Hm; lia|].
    apply negb_true_iff in Hm. intros Hin. apply in_map_iff in Hin as ([i j] & E & Hin). cbn in E. subst i.
    assert (existsb (fun p => Z.eqb (fst p) id) (opened s) = true) by (apply existsb_exists; exists (id, j); split; [exact Hin|apply Z.eqb_refl]). congruence.
  - constructor; [cbn; lia|exact H3].
  - constructor; [discriminate|exact H4].
  - rewrite H5. apply Permutation_middle.
Qed.
Lemma close_inv lim s v h k : hinv lim s -> find_var (vars s) v = Some h -> (lim <= hid h)%Z -> kind h = Some k ->
  let s' := lib_close (with_vars s (del_var (vars s) v)) (hid h) k in hinv lim s' /\ bogus s' = bogus s /\ closed s' = (hid h, k) :: closed s.
Proof.
  intros (H1 & H2 & H3 & H4 & H5) Hf Hl Hk. pose proof (find_del _ _ _ Hf) as Hd. pose proof (owned_perm lim _ _ Hd) as Ho.
  cbn in Ho. unfold own1 in Ho at 1. cbn in Ho. destruct (Z.leb_spec lim (hid h)); [|lia]. rewrite Hk in Ho. cbn in Ho. rewrite H1 in Ho.
  assert (Hin : In (hid h, k) (opened s)) by (rewrite Ho; now left). destruct (del_id_in _ _ _ Hin) as (o & Eo & Hp).
  unfold lib_close. cbn. rewrite Eo. cbn. split; [|split; reflexivity]. unfold hinv; cbn. repeat split.
  - apply (Permutation_cons_inv (a := (hid h, k))). rewrite <- Hp, <- Ho. reflexivity.
  - assert (N : NoDup (map fst ((hid h, k) :: o))) by (eapply Permutation_NoDup; [apply Permutation_map; exact Hp|exact H2]). now inversion N.
  - rewrite Hp in H3. now inversion H3.
  - rewrite Hd in H4. now inversion H4.
  - rewrite H5, Hp. symmetry. apply Permutation_middle.
Qed.
Lemma drop_inv lim s v h : hinv lim s -> find_var (vars s) v = Some h -> (hid h < lim)%Z -> hinv lim (with_vars s (del_var (vars s) v)).
Proof.
  intros H Hf Hl. pose proof (find_del _ _ _ Hf) as Hd. apply hinv_vars; [exact H| |].
  - rewrite (owned_perm lim _ _ Hd). change (owned lim ((v, h) :: del_var (vars s) v)) with (own1 lim h ++ owned lim (del_var (vars s) v)).
    unfold own1 at 1. destruct (Z.leb_spec lim (hid h)); [lia|reflexivity].
  - destruct H as (_ & _ & _ & H4 & _). rewrite Hd in H4. now inversion H4.
Qed.
Lemma move_inv lim s v u h m : hinv lim s -> find_var (vars s) u = Some h -> (m < lim)%Z -> hinv lim (with_vars s ((v, h) :: set_var (vars s) u (Handle m (kind h)))).
Proof.
  intros H Hf Hm. pose proof (find_del _ _ _ Hf) as Hd. pose proof (set_del _ _ _ (Handle m (kind h)) Hf) as Hs. apply hinv_vars; [exact H| |].
  - assert (E : Permutation (owned lim (set_var (vars s) u (Handle m (kind h)))) (owned lim (del_var (vars s) u))).
    { rewrite (owned_perm lim _ _ Hs). cbn. unfold own1 at 1. cbn. destruct (Z.leb_spec lim m); [lia|reflexivity]. }
    rewrite (owned_perm lim _ _ Hd). cbn. now rewrite E.
  - destruct H as (_ & _ & _ & H4 & _). rewrite Hd in H4. inversion H4 as [|? ? A B]; subst. constructor; [exact A|]. rewrite Hs. constructor; [cbn; lia|exact B].
Qed.
Lemma assign_inv lim s v u g h : hinv lim s -> v <> u -> find_var (vars s) v = Some g -> find_var (vars s) u = Some h -> hinv lim (with_vars s (set_var (set_var (vars s) v h) u g)).
Proof.
  intros H Hn Hv Hu.
  assert (Hp : exists r, Permutation (vars s) ((v, g) :: (u, h) :: r) /\ Permutation (set_var (set_var (vars s) v h) u g) ((v, h) :: (u, g) :: r)).
  { pose proof (find_del _ _ _ Hv) as Hd. pose proof (set_del _ _ _ h Hv) as Hs. exists (del_var (del_var (vars s) v) u).
    assert (Hu' : find_var (set_var (vars s) v h) u = Some h) by (now rewrite find_set_other).
    assert (Hud : find_var (del_var (vars s) v) u = Some h).
    { clear - Hu Hn. induction (vars s) as [|[w x] r IH]; cbn in *; [discriminate|]. destruct (Nat.eqb_spec v w) as [->|].
      - destruct (Nat.eqb_spec u w); [congruence|exact Hu].
      - cbn. destruct (Nat.eqb_spec u w); [exact Hu|now apply IH]. }
    split; [rewrite Hd at 1; constructor; now apply find_del|].
    rewrite (set_del _ _ _ g Hu'). rewrite perm_swap. constructor.
    assert (E : del_var (set_var (vars s) v h) u = set_var (del_var (vars s) u) v h).
    { clear - Hn. induction (vars s) as [|[w x] r IH]; cbn; [reflexivity|]. destruct (Nat.eqb_spec v w) as [->|].
      - cbn. destruct (Nat.eqb_spec u w); [congruence|]. cbn. now rewrite Nat.eqb_refl.
      - cbn. destruct (Nat.eqb_spec u w); [reflexivity|]. cbn. destruct (Nat.eqb_spec v w); [congruence|]. now rewrite IH. }
    assert (Hvd : find_var (del_var (vars s) u) v = Some g).
    { clear - Hv Hn. induction (vars s) as [|[w x] r IH]; cbn in *; [discriminate|]. destruct (Nat.eqb_spec u w) as [->|].
      - destruct (Nat.eqb_spec v w); [congruence|exact Hv].
      - cbn. destruct (Nat.eqb_spec v w); [exact Hv|now apply IH]. }
    rewrite E, (set_del _ _ _ h Hvd). constructor.
    clear - Hn. induction (vars s) as [|[w x] r IH]; cbn; [reflexivity|]. destruct (Nat.eqb_spec u w) as [->|]; destruct (Nat.eqb_spec v w) as [->|]; cbn.
    - congruence.
    - rewrite Nat.eqb_refl. reflexivity.
    - rewrite Nat.eqb_refl. reflexivity.
    - destruct (Nat.eqb_spec v w); [congruence|]. destruct (Nat.eqb_spec u w); [congruence|]. now constructor. }
  destruct Hp as (r & P1 & P2). apply hinv_vars; [exact H| |].
  - rewrite (owned_perm lim _ _ P1), (owned_perm lim _ _ P2). cbn. rewrite !app_assoc. apply Permutation_app_tail, Permutation_app_comm.
  - destruct H as (_ & _ & _ & H4 & _). rewrite P1 in H4. inversion H4 as [|? ? A B]; subst. inversion B as [|? ? C D]; subst. rewrite P2. repeat constructor; assumption.
Qed.
Lemma hstep_inv s o e s' : hinv 0 s -> bogus s = [] -> hstep s o = Some (e, s') -> hinv 0 s' /\ bogus s' = [] /\ e <> HNull.
Proof.
  intros H Hb E. destruct o as [v|v id k|v u|v u|v]; cbn [hstep] in E.
  - destruct (find_var (vars s) v); [discriminate|]. injection E as <- <-. split; [|split; [exact Hb|discriminate]].
    apply hinv_vars; [exact H|cbn; reflexivity|]. destruct H as (_ & _ & _ & H4 & _). constructor; [cbn; lia|exact H4].
  - destruct (find_var (vars s) v); [discriminate|]. destruct (may_issue s id) eqn:Em; [|discriminate].
    unfold lib_issue in E. destruct (Z.ltb_spec id 0); [injection E as <- <-; split; [|split]; trivial; discriminate|].
    pose proof (issue_inv 0 s v id k ltac:(lia) ltac:(lia) Em H ltac:(lia)) as I. unfold lib_issue in I. destruct (Z.ltb_spec id 0); [lia|].
    injection E as <- <-. split; [exact I|]. split; [exact Hb|discriminate].
  - destruct (find_var (vars s) v); [discriminate|]. destruct (find_var (vars s) u) as [h|] eqn:Eu; [|discriminate]. injection E as <- <-.
    split; [apply move_inv; [exact H|exact Eu|lia]|]. split; [exact Hb|discriminate].
  - destruct (find_var (vars s) v) as [g|] eqn:Ev; [|discriminate]. destruct (find_var (vars s) u) as [h|] eqn:Eu; [|discriminate].
    destruct (Nat.eqb_spec v u) as [->|Hn]; injection E as <- <-; [split; [exact H|split; [exact Hb|discriminate]]|].
    split; [now apply assign_inv|]. split; [exact Hb|discriminate].
  - destruct (find_var (vars s) v) as [h|] eqn:Ev; [|discriminate]. destruct (Z.leb_spec 0 (hid h)) as [Hl|Hl].
    + destruct (kind h) as [k|] eqn:Ek.
      * injection E as <- <-. destruct (close_inv 0 s v h k H Ev Hl Ek) as (I1 & I2 & I3). split; [exact I1|]. split; [congruence|discriminate].
      * exfalso. destruct H as (_ & _ & _ & H4 & _). rewrite (find_del _ _ _ Ev) in H4. inversion H4 as [|? ? A B]; subst. cbn in A. now apply A.
    + injection E as <- <-. split; [now apply (drop_inv 0 s v h)|]. split; [exact Hb|discriminate].
Qed.
Lemma hinv_empty lim : hinv lim hempty.
Proof. unfold hinv, hempty; cbn. repeat split; constructor. Qed.
Lemma hrun_inv os : forall s es s', hinv 0 s -> bogus s = [] -> hrun hstep s os = Some (es, s') -> hinv 0 s' /\ bogus s' = [] /\ ~ In HNull es.
Proof.
  induction os as [|o os IH]; cbn [hrun]; intros s es s' H Hb E; [injection E as <- <-; repeat split; trivial; try apply H; intros []|].
  destruct (hstep s o) as [[e s1]|] eqn:E1; [|discriminate]. destruct (hrun hstep s1 os) as [[es1 s2]|] eqn:E2; [|discriminate]. injection E as <- <-.
  destruct (hstep_inv _ _ _ _ H Hb E1) as (I1 & I2 & I3). destruct (IH _ _ _ I1 I2 E2) as (J1 & J2 & J3). split; [exact J1|]. split; [exact J2|]. intros [Hx|Hx]; [now apply I3|now apply J3].
Qed.

(** H5File *)
Definition fissues (o : hop) : Prop := match o with HAcquire _ id _ => id <> 0%Z | _ => True end.
Definition fkind (s : hstate) : Prop := Forall (fun p => kind (snd p) = Some 0) (vars s) /\ Forall (fun p => snd p = 0) (opened s).
Lemma fkind_set vs v h : Forall (fun p => kind (snd p) = Some 0) vs -> kind h = Some 0 -> Forall (fun p : nat * handle => kind (snd p) = Some 0) (set_var vs v h).
Proof. intros H Hk. induction H as [|[w g] r Hg Hr IH]; cbn; [constructor|]. destruct (Nat.eqb v w); constructor; trivial. Qed.
Lemma fkind_find vs : forall v h, Forall (fun p => kind (snd p) = Some 0) vs -> find_var vs v = Some h -> kind h = Some 0.
Proof. intros v h H E. rewrite (find_del _ _ _ E) in H. now inversion H. Qed.
Lemma fstep_inv s o e s' : hinv 1 s -> fkind s -> Forall (fun id => (id <= 0)%Z) (bogus s) -> fissues o -> fstep s o = Some (e, s') ->
  hinv 1 s' /\ fkind s' /\ Forall (fun id => (id <= 0)%Z) (bogus s').
Proof.
  intros H [F1 F2] Hb Ho E. destruct o as [v|v id k|v u|v u|v]; cbn [fstep fissues] in *.
  - discriminate.
  - destruct (find_var (vars s) v); [discriminate|]. destruct (may_issue s id) eqn:Em; [|discriminate]. injection E as <- <-.
    destruct (Z.ltb_spec id 0) as [Hn|Hn].
    + unfold lib_issue. destruct (Z.ltb_spec id 0); [|lia]. split; [|split; [split; [constructor; [reflexivity|exact F1]|exact F2]|exact Hb]].
      apply hinv_vars; [exact H|cbn; unfold own1; cbn; destruct (Z.leb_spec 1 id); [lia|reflexivity]|]. destruct H as (_ & _ & _ & H4 & _). constructor; [discriminate|exact H4].
    + split; [apply (issue_inv 1 s v id 0); trivial; lia|]. unfold lib_issue. destruct (Z.ltb_spec id 0); [lia|]. split; [split; cbn; constructor; trivial|exact Hb].
  - destruct (find_var (vars s) v); [discriminate|]. destruct (find_var (vars s) u) as [h|] eqn:Eu; [|discriminate]. injection E as <- <-.
    pose proof (fkind_find _ _ _ F1 Eu) as Hk.
    split; [apply move_inv; [exact H|exact Eu|lia]|]. split; [|exact Hb]. split; [|exact F2]. cbn. constructor; [exact Hk|]. now apply fkind_set.
  - destruct (find_var (vars s) v) as [g|] eqn:Ev; [|discriminate]. destruct (find_var (vars s) u) as [h|] eqn:Eu; [|discriminate].
    pose proof (fkind_find _ _ _ F1 Eu) as Hk. pose proof (fkind_find _ _ _ F1 Ev) as Hk'.
    destruct (Nat.eqb_spec v u) as [->|Hn]; injection E as <- <-; [split; [exact H|split; [split; assumption|exact Hb]]|].
    split; [now apply assign_inv|]. split; [|exact Hb]. split; [|exact F2]. cbn. apply fkind_set; trivial. now apply fkind_set.
  - destruct (find_var (vars s) v) as [h|] eqn:Ev; [|discriminate]. injection E as <- <-. pose proof (fkind_find _ _ _ F1 Ev) as Hk.
    assert (Fd : Forall (fun p => kind (snd p) = Some 0) (del_var (vars s) v)) by (rewrite (find_del _ _ _ Ev) in F1; now inversion F1).
    destruct (Z.leb_spec 1 (hid h)) as [Hl|Hl].
    + destruct (close_inv 1 s v h 0 H Ev Hl Hk) as (I1 & I2 & I3). split; [exact I1|]. rewrite I2. split; [|exact Hb].
      unfold lib_close. cbn. destruct (del_id (opened s) (hid h) 0) as [o|] eqn:Ed; (split; [exact Fd|]); [|exact F2].
      cbn. destruct (del_id_in _ _ _ (del_id_some _ _ _ _ Ed)) as (o' & Eo & Hp). replace o with o' by congruence. rewrite Hp in F2. now inversion F2.
    + unfold lib_close. cbn. destruct (del_id (opened s) (hid h) 0) as [o|] eqn:Ed.
      * exfalso. apply del_id_some in Ed. destruct H as (_ & _ & H3 & _). rewrite Forall_forall in H3. apply H3 in Ed. cbn in Ed. lia.
      * pose proof (drop_inv 1 s v h H Ev ltac:(lia)) as D. split; [exact D|]. split; [split; assumption|]. cbn. constructor; [lia|exact Hb].
Qed.
Lemma frun_inv os : forall s es s', hinv 1 s -> fkind s -> Forall (fun id => (id <= 0)%Z) (bogus s) -> Forall fissues os -> hrun fstep s os = Some (es, s') ->
  hinv 1 s' /\ Forall (fun id => (id <= 0)%Z) (bogus s').
Proof.
  induction os as [|o os IH]; cbn [hrun]; intros s es s' H Hk Hb Ho E; [injection E as <- <-; now split|].
  destruct (fstep s o) as [[e s1]|] eqn:E1; [|discriminate]. destruct (hrun fstep s1 os) as [[es1 s2]|] eqn:E2; [|discriminate]. injection E as <- <-.
  inversion Ho as [|? ? Ho1 Ho2]; subst. destruct (fstep_inv _ _ _ _ H Hk Hb Ho1 E1) as (I1 & I2 & I3). now apply (IH _ _ _ I1 I2 I3 Ho2 E2).
Qed.

(* ------------------------------------------------------------------ *)
(** ** Chunks *)
Local Open Scope Z_scope.
Fixpoint zprod (l : list Z) : Z := match l with [] => 1 | x :: r => x * zprod r end.
Lemma zprod_app a b : zprod (a ++ b) = zprod a * zprod b.
Proof. induction a as [|x a IH]; cbn [zprod app]; [lia|]. rewrite IH. ring. Qed.
Lemma zprod_rev l : zprod (rev l) = zprod l.
Proof. induction l as [|x l IH]; cbn [rev zprod]; [reflexivity|]. rewrite zprod_app. cbn [zprod]. lia. Qed.
Lemma chunk_loop_ok es : forall size, 0 < size < two64 -> Forall (fun e => 1 <= e < two64) es -> exists c, chunk_loop size es = Ok c /\
  List.length c = List.length es /\ Forall2 (fun x e => 1 <= x <= e) c es /\ size * zprod c <= Z.max target_chunk size.
Proof.
  induction es as [|e es IH]; intros size Hs He; cbn [chunk_loop].
  - exists []. cbn. repeat split; [constructor|lia].
  - inversion He as [|? ? He1 He2]; subst. destruct (Z.ltb_spec size target_chunk) as [Hl|Hl].
    + destruct (Z.eqb_spec size 0); [lia|].
      assert (Hq : 1 <= target_chunk / size <= target_chunk) by (split; [apply Z.div_le_lower_bound; unfold target_chunk in *; lia|apply Z.div_le_upper_bound; unfold target_chunk in *; nia]).
      assert (Hm : size * (target_chunk / size) <= target_chunk) by (apply Z.mul_div_le; lia).
      assert (E1 : u32 (target_chunk / size) = target_chunk / size) by (apply Z.mod_small; unfold target_chunk, two32 in *; lia). cbv zeta. rewrite E1.
      set (q := target_chunk / size) in *.
      set (d := if orb (Z.ltb e q) (Z.eqb q 0) then u32 e else q).
      assert (Hd : 1 <= d <= e /\ d <= q).
      { unfold d. destruct (Z.ltb_spec e q); cbn [orb].
        - unfold u32. rewrite Z.mod_small by (unfold target_chunk, two32 in *; lia). lia.
        - destruct (Z.eqb_spec q 0); lia. }
      assert (Hsd : size * d <= target_chunk) by nia.
      assert (E2 : u64 (size * d) = size * d) by (apply Z.mod_small; unfold target_chunk, two64 in *; nia). rewrite E2.
      destruct (IH (size * d) ltac:(unfold target_chunk, two64 in *; nia) He2) as (c & -> & L & F & P). cbn [obind].
      exists (d :: c). split; [reflexivity|]. split; [cbn; congruence|]. split; [constructor; [lia|exact F]|]. cbn [zprod]. rewrite Z.mul_assoc. lia.
    + destruct (IH size Hs He2) as (c & -> & L & F & P). cbn [obind]. exists (1 :: c). split; [reflexivity|]. split; [cbn; congruence|]. split; [constructor; [lia|exact F]|]. cbn [zprod]. lia.
Qed.
Lemma Forall2_rev {X Y} (R : X -> Y -> Prop) a b : Forall2 R a b -> Forall2 R (rev a) (rev b).
Proof. induction 1; cbn; [constructor|]. apply Forall2_app; [assumption|]. now repeat constructor. Qed.
Lemma chunk_dims_ok elem exts : 0 < elem < two64 -> Forall (fun e => (1 <= e)%nat /\ Z.of_nat e < two64) exts -> exists c, chunk_dims elem exts = Ok c /\
  Forall2 (fun x e => 1 <= x <= Z.of_nat e) c exts /\ elem * zprod c <= Z.max target_chunk elem.
Proof.
  intros He Hx. destruct (chunk_loop_ok (rev (map Z.of_nat exts)) elem He) as (c & Ec & L & F & P).
  - apply Forall_rev. rewrite Forall_map. revert Hx. apply Forall_impl. intros e [H1 H2]. lia.
  - unfold chunk_dims. rewrite Ec. cbn [obind]. exists (rev c). split; [reflexivity|]. split.
    + apply Forall2_rev in F. rewrite rev_involutive in F. revert F. clear. generalize (rev c). induction exts as [|e es IH]; cbn; intros l F; inversion F; subst; constructor; auto.
    + now rewrite zprod_rev.
Qed.
Lemma chunk_valid_of c exts : Forall2 (fun x e => 1 <= x <= Z.of_nat e) c exts -> chunk_valid c exts = true.
Proof.
  intros F. unfold chunk_valid. apply andb_true_iff. split; [apply Nat.eqb_eq; induction F; cbn; congruence|].
  induction F as [|x e c es H F IH]; cbn; [reflexivity|]. rewrite IH. rewrite andb_true_r. apply andb_true_iff. split; [apply Z.ltb_lt|apply Z.leb_le]; lia.
Qed.
Close Scope Z_scope.
Lemma lookup_cons {V} n m (v : V) l : lookup n ((m, v) :: l) = if String.eqb n m then Some v else lookup n l.
Proof. reflexivity. Qed.
