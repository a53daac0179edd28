(** Properties C21 (HDF5 handles) and C22 (arrays and attributes in HDF5 files). *)
From Coq Require Import List Arith ZArith Lia Bool String Permutation.
From Verif Require Import Err MarrayModel MarrayEditProofs H5Model H5Proofs.
Import ListNotations.

(** ** C21 *)
(** Any history of H5Handle objects: no closing function is ever called with an identifier that is not open, or through a null pointer; the
    identifiers issued are those closed plus those still open, once each; and what is open is exactly what living handles hold. When no
    handle is alive nothing is open. *)
Theorem c21_handles : forall os es s, hrun hstep hempty os = Some (es, s) ->
  bogus s = [] /\ ~ In HNull es /\ Permutation (issued s) (closed s ++ opened s) /\ (vars s = [] -> opened s = [] /\ Permutation (issued s) (closed s)).
Proof.
  intros os es s H. destruct (hrun_inv os hempty es s (hinv_empty 0) eq_refl H) as ((H1 & H2 & H3 & H4 & H5) & Hb & Hn).
  split; [exact Hb|]. split; [exact Hn|]. split; [exact H5|]. intros Hv. rewrite Hv in H1. cbn in H1. apply Permutation_nil in H1. rewrite H1, app_nil_r in H5. now split.
Qed.
Print Assumptions c21_handles.
(** Never used after closing: a living handle with a non-negative identifier holds one that is open, with its own closing function, and no two
    handles hold the same one. *)
Theorem c21_use : forall os es s v h, hrun hstep hempty os = Some (es, s) -> find_var (vars s) v = Some h -> (0 <= hid h)%Z ->
  (exists k, kind h = Some k /\ In (hid h, k) (opened s)) /\
  (forall w g, w <> v -> find_var (vars s) w = Some g -> hid g <> hid h).
Proof.
  intros os es s v h H Hv Hp. destruct (hrun_inv os hempty es s (hinv_empty 0) eq_refl H) as ((H1 & H2 & H3 & H4 & H5) & Hb & Hn).
  assert (Ow : forall w g, find_var (vars s) w = Some g -> (0 <= hid g)%Z -> exists k, kind g = Some k /\ Permutation (owned 0 (vars s)) ((hid g, k) :: owned 0 (del_var (vars s) w))).
  { intros w g Hw Hg. pose proof (find_del _ _ _ Hw) as Hd. rewrite Hd in H4. inversion H4 as [|? ? A B]; subst. cbn in A. specialize (A Hg).
    destruct (kind g) as [k|] eqn:Ek; [|congruence]. exists k. split; [reflexivity|]. rewrite (owned_perm 0 _ _ Hd). cbn. unfold own1 at 1. destruct (Z.leb_spec 0 (hid g)); [|lia]. now rewrite Ek. }
  destruct (Ow v h Hv Hp) as (k & Ek & Pk). split.
  - exists k. split; [exact Ek|]. rewrite <- H1, Pk. now left.
  - intros w g Hw Hg E. assert (Hg' : find_var (del_var (vars s) v) w = Some g).
    { clear - Hg Hw. induction (vars s) as [|[x y] r IH]; cbn in *; [discriminate|]. destruct (Nat.eqb_spec v x) as [->|].
      - destruct (Nat.eqb_spec w x); [congruence|exact Hg].
      - cbn. destruct (Nat.eqb_spec w x); [exact Hg|now apply IH]. }
    destruct (Ow w g Hg ltac:(lia)) as (k' & Ek' & _). rewrite <- H1, Pk in H2. cbn in H2. inversion H2 as [|? ? N _]; subst. apply N.
    pose proof (owned_perm 0 _ _ (find_del _ _ _ Hg')) as Q. rewrite Q. cbn. unfold own1 at 1. rewrite E in *. destruct (Z.leb_spec 0 (hid h)); [|lia]. rewrite Ek'. now left.
Qed.
Print Assumptions c21_use.
(** A failed library call is never kept: the constructor throws and the history goes on as if the call had not been made. *)
Theorem c21_negative : forall s v id k, find_var (vars s) v = None -> (id < 0)%Z -> hstep s (HAcquire v id k) = Some (HThrow, s).
Proof. intros s v id k H Hn. cbn. rewrite H. unfold may_issue, lib_issue. apply Z.ltb_lt in Hn. now rewrite Hn. Qed.
Print Assumptions c21_negative.
(** H5File: every identifier the library issues (never 0) is closed exactly once as well ... *)
Theorem c21_files_partial : forall os es s, Forall fissues os -> hrun fstep hempty os = Some (es, s) ->
  Permutation (issued s) (closed s ++ opened s) /\ (vars s = [] -> opened s = [] /\ Permutation (issued s) (closed s)) /\ Forall (fun id => (id <= 0)%Z) (bogus s).
Proof.
  intros os es s Ho H. destruct (frun_inv os hempty es s (hinv_empty 1) ltac:(split; constructor) ltac:(constructor) Ho H) as ((H1 & H2 & H3 & H4 & H5) & Hb).
  split; [exact H5|]. split; [|exact Hb]. intros Hv. rewrite Hv in H1. cbn in H1. apply Permutation_nil in H1. rewrite H1, app_nil_r in H5. now split.
Qed.
Print Assumptions c21_files_partial.
(** ... but a failed open is kept, and closing functions are called with identifiers that were never issued: the negative result of a failed
    open (as in WriteStateHDF5 and ReadStateHDF5), and 0 after a move. *)
Theorem c21_files_refuted : exists os es s, Forall fissues os /\ hrun fstep hempty os = Some (es, s) /\ In 0%Z (bogus s) /\ In (-1)%Z (bogus s).
Proof.
  exists [HAcquire 0 5 0; HMove 1 0; HDestroy 0; HAcquire 2 (-1) 0; HDestroy 2; HDestroy 1]. do 2 eexists. split; [repeat constructor; cbn; discriminate|]. split; [vm_compute; reflexivity|]. vm_compute. auto.
Qed.
Print Assumptions c21_files_refuted.
Example c21_case : exists es s, hrun hstep hempty [HAcquire 0 5 7; HDefault 1; HAssign 1 0; HAcquire 2 6 7; HMove 3 2; HAssign 3 1; HDestroy 0; HDestroy 1; HAcquire 4 (-1) 2; HDestroy 2; HDestroy 3] = Some (es, s) /\
  vars s = [] /\ closed s = [(5%Z, 7); (6%Z, 7)].
Proof. do 2 eexists. vm_compute. repeat split. Qed.

(** ** C22 *)
(** The chunk shape: for a non-empty array every chunk extent is between 1 and the extent, and a chunk is at most 64 kB (or one element). *)
Theorem c22_chunks : forall elem exts, (0 < elem < 2 ^ 64)%Z -> Forall (fun e => 1 <= e /\ (Z.of_nat e < 2 ^ 64)%Z) exts ->
  exists c, chunk_dims elem exts = Ok c /\ Forall2 (fun x e => 1 <= x <= Z.of_nat e)%Z c exts /\ (elem * fold_right Z.mul 1 c <= Z.max 65536 elem)%Z.
Proof. intros elem exts He Hx. destruct (chunk_dims_ok elem exts He Hx) as (c & E & F & P). exists c. split; [exact E|]. split; [exact F|]. exact P. Qed.
Print Assumptions c22_chunks.
(** An empty dimension: the loop divides by zero (and with one dimension asks for an empty chunk). *)
Theorem c22_empty_refuted : chunk_dims 8 [3; 0] = UB /\ chunk_dims 8 [0] = Ok [0%Z] /\
  forall A (to_file : A -> A) g name, fst (fst (write_array 8 to_file g name (MArr [3; 0] []) 1)) = UB.
Proof. repeat split. Qed.
Print Assumptions c22_empty_refuted.

Section RoundTrip.
Context {A B : Type} (elem : Z) (to_file : A -> B) (from_file : B -> A) (dflt : A).
(** An array of any rank and shape that is written under a free name reads back as itself into any array of the same rank; the element
    types must convert back and forth without loss. No identifier is left open and nothing else in the file changes. *)
Theorem c22_round_trip : forall g name a level target, (0 < elem < 2 ^ 64)%Z -> (forall x, from_file (to_file x) = x) -> wf a -> wf target -> level <= 9 ->
  (level = 0 \/ Forall (fun e => 1 <= e /\ (Z.of_nat e < 2 ^ 64)%Z) (exts a)) -> lookup name (dsets g) = None ->
  List.length (exts a) = List.length (exts target) -> resize_fits (exts target) (exts a) ->
  exists g', write_array elem to_file g name a level = (Ok tt, g', 0) /\ read_array from_file dflt g' name target = (Ok a, 0) /\
    attrs g' = attrs g /\ (forall n, n <> name -> lookup n (dsets g') = lookup n (dsets g)).
Proof.
  intros g name a level target He Hc Hwa Hwt Hl Hx Hn Hr Hf. unfold write_array. destruct (Nat.ltb_spec 9 level); [lia|].
  assert (Hchunk : exists c, (if Nat.eqb level 0 then Ok [] else chunk_dims elem (exts a)) = Ok c /\ orb (Nat.eqb level 0) (chunk_valid c (exts a)) = true).
  { destruct (Nat.eqb_spec level 0) as [->|H0]; [exists []; now split|]. destruct Hx as [Hx|Hx]; [contradiction|].
    destruct (chunk_dims_ok elem (exts a) He Hx) as (c & E & F & _). exists c. split; [exact E|]. now apply chunk_valid_of. }
  destruct Hchunk as (c & -> & ->). rewrite Hn. eexists. split; [reflexivity|]. split; [|split; [reflexivity|]].
  - unfold read_array. cbn [dsets]. rewrite lookup_cons, String.eqb_refl. cbn [dexts ddata]. rewrite Hr, Nat.eqb_refl.
    destruct (resize_all_spec dflt target (exts a) Hwt Hr Hf) as (t & -> & Hwt' & Et & _). unfold wf in Hwt', Hwa. rewrite map_length, Hwt', Hwa, Et, Nat.eqb_refl.
    rewrite map_map. rewrite (map_ext _ (fun x => x) Hc), map_id. destruct a; reflexivity.
  - intros n Hne. cbn [dsets]. rewrite lookup_cons. destruct (String.eqb_spec n name); [contradiction|reflexivity].
Qed.
(** A name in use, or one that is missing, is refused; the file is unchanged. *)
Theorem c22_names : forall g name a target,
  (forall d, lookup name (dsets g) = Some d -> write_array elem to_file g name a 0 = (Throw RuntimeError, g, 0)) /\
  (lookup name (dsets g) = None -> read_array from_file dflt g name target = (Throw RuntimeError, 0)).
Proof. intros. split; [intros d H|intros H]; unfold write_array, read_array; cbn; now rewrite H. Qed.
(** The wrong rank is refused ... *)
Theorem c22_rank : forall g name d target, lookup name (dsets g) = Some d -> List.length (dexts d) <> List.length (exts target) ->
  fst (read_array from_file dflt g name target) = Throw RuntimeError.
Proof. intros g name d target H Hr. unfold read_array. rewrite H. destruct (Nat.eqb_spec (List.length (dexts d)) (List.length (exts target))); [contradiction|reflexivity]. Qed.
(** ... leaving the dataset and its data space open. *)
Theorem c22_rank_leak_refuted : forall g name d target, lookup name (dsets g) = Some d -> List.length (dexts d) <> List.length (exts target) ->
  snd (read_array from_file dflt g name target) = 2.
Proof. intros g name d target H Hr. unfold read_array. rewrite H. destruct (Nat.eqb_spec (List.length (dexts d)) (List.length (exts target))); [contradiction|reflexivity]. Qed.
(** Attributes read back; the wrong type and missing names are refused. *)
Theorem c22_attributes : forall (g : group B) name, lookup name (attrs g) = None ->
  (forall s, s <> EmptyString -> read_string (add_string g name s) name = Ok s) /\
  (forall t v, read_number (add_number g name t v) name t = Ok v /\ (forall t', t' <> t -> read_number (add_number g name t v) name t' = Throw RuntimeError) /\ read_string (add_number g name t v) name = Throw RuntimeError) /\
  read_string g name = Throw RuntimeError /\ (forall t, read_number g name t = Throw RuntimeError) /\
  (forall n s, n <> name -> lookup n (attrs (add_string g name s)) = lookup n (attrs g)) /\ (forall n t v, n <> name -> lookup n (attrs (add_number g name t v)) = lookup n (attrs g)).
Proof.
  intros g name H. unfold read_string, read_number, add_string, add_number. rewrite H. cbn [attrs]. split; [|split; [|split; [|split; [|split]]]].
  - intros s Hs. rewrite lookup_cons, String.eqb_refl. destruct (String.eqb_spec s EmptyString); [contradiction|reflexivity].
  - intros t v. rewrite !lookup_cons, String.eqb_refl, Nat.eqb_refl. repeat split. intros t' Ht. destruct (Nat.eqb_spec t t'); [congruence|reflexivity].
  - reflexivity.
  - reflexivity.
  - intros n s Hn. rewrite lookup_cons. destruct (String.eqb_spec n name); [contradiction|reflexivity].
  - intros n t v Hn. rewrite lookup_cons. destruct (String.eqb_spec n name); [contradiction|reflexivity].
Qed.
(** A name that is taken keeps what it has: a second attribute of that name is not written. *)
Theorem c22_attribute_taken : forall (g : group B) name a, lookup name (attrs g) = Some a ->
  (forall s, add_string g name s = g) /\ (forall t v, add_number g name t v = g).
Proof. intros g name a H. unfold add_string, add_number. rewrite H. split; reflexivity. Qed.
(** The empty string comes back as a string of one NUL character. *)
Theorem c22_empty_string_refuted : forall (g : group B) name, lookup name (attrs g) = None -> read_string (add_string g name EmptyString) name = Ok nul /\ nul <> EmptyString.
Proof. intros g name H. unfold add_string, read_string. rewrite H. cbn [attrs]. rewrite lookup_cons, String.eqb_refl. split; [reflexivity|discriminate]. Qed.
End RoundTrip.
Print Assumptions c22_round_trip.
Print Assumptions c22_names.
Print Assumptions c22_attribute_taken.
Print Assumptions c22_rank.
Print Assumptions c22_rank_leak_refuted.
Print Assumptions c22_attributes.
Print Assumptions c22_empty_string_refuted.
Example c22_case : let a := MArr [2; 3] [1; 2; 3; 4; 5; 6]%Z in
  exists g, write_array 4 (fun x => x) (Group [] []) "t" a 5 = (Ok tt, g, 0) /\ read_array (fun x => x) 0%Z g "t" (MArr [1; 4] [7; 8; 9; 10]%Z) = (Ok a, 0) /\ resize_fits [1; 4] [2; 3].
Proof. cbn zeta. eexists. split; [vm_compute; reflexivity|]. split; [vm_compute; reflexivity|].
  intros k Hk. cbn [List.length] in Hk. destruct k as [|[|k]]; [..|lia]; split; vm_compute; reflexivity. Qed.
Example c22_chunk_case : chunk_dims 8 [100; 200; 300] = Ok [1; 27; 300]%Z.
Proof. vm_compute. reflexivity. Qed.
