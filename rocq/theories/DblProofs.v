From Coq Require Import List Arith ZArith Bool Lia PArith.
From Coq Require Import SpecFloat.
From Verif Require Import Err DblModel DblSpec.
Import ListNotations.

Lemma dlt_less a b : dlt a b = true <-> less a b.
Proof. unfold dlt, SFltb, less. destruct (SFcompare a b) as [[]|]; split; congruence. Qed.
Lemma dlt_false a b : dlt a b = false <-> ~ less a b.
Proof. rewrite <- dlt_less. destruct (dlt a b); split; congruence. Qed.

(** The order of doubles by places: a sign, an exponent and a mantissa. *)
Definition key (x : double) : Z * Z * Z :=
  match x with
  | S754_nan => (0, 0, 0)
  | S754_infinity true => (-2, 0, 0)
  | S754_infinity false => (2, 0, 0)
  | S754_zero _ => (0, 0, 0)
  | S754_finite false m e => (1, e, Zpos m)
  | S754_finite true m e => (-1, - e, Zneg m)
  end%Z.
Definition klt (a b : Z * Z * Z) : Prop :=
  let '(a1, a2, a3) := a in let '(b1, b2, b3) := b in
  (a1 < b1 \/ a1 = b1 /\ (a2 < b2 \/ a2 = b2 /\ a3 < b3))%Z.
Lemma compare_key a b : number a -> number b ->
  match SFcompare a b with Some Lt => klt (key a) (key b) | Some Eq => key a = key b | Some Gt => klt (key b) (key a) | None => False end.
Proof.
  intros Ha Hb. unfold number in *.
  destruct a as [s|s| |s m e], b as [s'|s'| |s' m' e']; try congruence; repeat match goal with x : bool |- _ => destruct x end;
    cbn [SFcompare key klt]; try lia; try reflexivity; try exact I.
  - destruct (Z.compare_spec e e') as [H|H|H]; try lia. subst. change (Pcompare m m' Eq) with (Pos.compare m m').
    destruct (Pos.compare_spec m m') as [H|H|H]; cbn [CompOpp]; try lia. now subst.
  - destruct (Z.compare_spec e e') as [H|H|H]; try lia. subst. change (Pcompare m m' Eq) with (Pos.compare m m').
    destruct (Pos.compare_spec m m') as [H|H|H]; try lia. now subst.
Qed.
Lemma less_number a b : less a b -> number a /\ number b.
Proof. unfold less, number. destruct a as [[]|[]| |[] ? ?], b as [[]|[]| |[] ? ?]; cbn [SFcompare]; intros H; split; congruence. Qed.
Lemma less_key a b : number a -> number b -> (less a b <-> klt (key a) (key b)).
Proof.
  intros Ha Hb. pose proof (compare_key a b Ha Hb) as H. unfold less.
  destruct (SFcompare a b) as [[]|]; destruct (key a) as [[]], (key b) as [[]]; cbn [klt] in *; split; intros G; try congruence; try tauto.
  - injection H as -> -> ->. lia.
  - exfalso. lia.
Qed.
Lemma less_trans a b c : less a b -> less b c -> less a c.
Proof.
  intros H G. destruct (less_number _ _ H) as [Ha Hb], (less_number _ _ G) as [_ Hc].
  apply (less_key a b) in H; trivial. apply (less_key b c) in G; trivial. apply less_key; trivial.
  destruct (key a) as [[]], (key b) as [[]], (key c) as [[]]; cbn [klt] in *. lia.
Qed.
Lemma less_irrefl a : ~ less a a.
Proof.
  intros H. destruct (less_number _ _ H) as [Ha _]. apply less_key in H; trivial. destruct (key a) as [[]]; cbn [klt] in H. lia.
Qed.
Lemma not_less a b : number a -> number b -> (~ less a b <-> at_most b a).
Proof.
  intros Ha Hb. unfold at_most, less, same. pose proof (compare_key a b Ha Hb) as H. pose proof (compare_key b a Hb Ha) as G.
  destruct (SFcompare a b) as [[]|], (SFcompare b a) as [[]|]; try tauto; destruct (key a) as [[]], (key b) as [[]]; cbn [klt] in *;
    repeat match goal with H : (_, _, _) = (_, _, _) |- _ => injection H as ? ? ? end; try lia; split; try tauto; try congruence;
    intros K; try (now left); try (now right); try (destruct K; congruence).
Qed.
Lemma less_at_most a b c : less a b -> at_most b c -> less a c.
Proof.
  intros H [G|G]; [now apply less_trans with b|].
  destruct (less_number _ _ H) as [Ha Hb]. assert (Hc : number c) by (unfold number; intros ->; unfold same in G; destruct b as [[]|[]| |[] ? ?]; discriminate).
  apply (less_key a b) in H; trivial. apply less_key; trivial. unfold same in G. pose proof (compare_key b c Hb Hc) as K. rewrite G in K. now rewrite <- K.
Qed.
Lemma at_most_less a b c : at_most a b -> less b c -> less a c.
Proof.
  intros [G|G] H; [now apply less_trans with b|].
  destruct (less_number _ _ H) as [Hb Hc]. assert (Ha : number a) by (unfold number; intros ->; unfold same in G; discriminate).
  apply (less_key b c) in H; trivial. apply less_key; trivial. unfold same in G. pose proof (compare_key a b Ha Hb) as K. rewrite G in K. now rewrite K.
Qed.
Lemma not_nan_lt x : dlt S754_nan x = false /\ dlt x S754_nan = false.
Proof. unfold dlt, SFltb. destruct x; split; reflexivity. Qed.

(** ** The search *)
Lemma div2_lt n : Nat.div2 (S n) < S n.
Proof. apply Nat.lt_div2. lia. Qed.
Lemma bisect_range right : forall fuel first len, first <= bisect right fuel first len <= first + len.
Proof.
  induction fuel as [|fuel IH]; intros first len; cbn [bisect]; [destruct len; lia|].
  destruct len as [|len]; [lia|]. pose proof (div2_lt len) as D. set (h := Nat.div2 (S len)) in *.
  destruct (right (first + h)).
  - specialize (IH (S (first + h)) (S len - h - 1)). lia.
  - specialize (IH first h). lia.
Qed.
(** The last place left of the result was tried and went right, the first place from it on was tried and stayed left. *)
Lemma bisect_ends right : forall fuel first len, len <= fuel ->
  let k := bisect right fuel first len in
  (first < k -> right (k - 1) = true) /\ (k < first + len -> right k = false).
Proof.
  induction fuel as [|fuel IH]; intros first len Hf; cbn [bisect]; [destruct len; cbv zeta; split; intros; lia|].
  destruct len as [|len]; [cbv zeta; split; intros; lia|]. pose proof (div2_lt len) as D. set (h := Nat.div2 (S len)) in *.
  destruct (right (first + h)) eqn:E.
  - specialize (IH (S (first + h)) (S len - h - 1) ltac:(lia)). cbv zeta in *. destruct IH as [IH1 IH2].
    pose proof (bisect_range right fuel (S (first + h)) (S len - h - 1)) as Hr.
    set (k := bisect right fuel (S (first + h)) (S len - h - 1)) in *. split; intros H.
    + destruct (Nat.eq_dec k (S (first + h))) as [K|K]; [rewrite K; cbn [Nat.sub]; now rewrite Nat.sub_0_r|apply IH1; lia].
    + apply IH2. lia.
  - specialize (IH first h ltac:(lia)). cbv zeta in *. destruct IH as [IH1 IH2].
    pose proof (bisect_range right fuel first h) as Hr.
    set (k := bisect right fuel first h) in *. split; intros H; [now apply IH1|].
    destruct (Nat.eq_dec k (first + h)) as [K|K]; [now rewrite K|apply IH2; lia].
Qed.
Lemma upper_range xs x : upper_bound xs x <= length xs.
Proof. unfold upper_bound. pose proof (bisect_range (fun i => negb (dlt x (at_place xs i))) (length xs) 0 (length xs)). lia. Qed.
Lemma upper_ends xs x :
  (0 < upper_bound xs x -> dlt x (at_place xs (upper_bound xs x - 1)) = false) /\
  (upper_bound xs x < length xs -> dlt x (at_place xs (upper_bound xs x)) = true).
Proof.
  destruct (bisect_ends (fun i => negb (dlt x (at_place xs i))) (length xs) 0 (length xs) (le_n _)) as [A B]. cbv zeta in A, B.
  fold (upper_bound xs x) in A, B. split; intros H.
  - specialize (A H). now apply negb_true_iff.
  - specialize (B ltac:(lia)). now apply negb_false_iff.
Qed.
Lemma lower_range xs x : lower_bound xs x <= length xs.
Proof. unfold lower_bound. pose proof (bisect_range (fun i => dlt (at_place xs i) x) (length xs) 0 (length xs)). lia. Qed.
Lemma lower_ends xs x :
  (0 < lower_bound xs x -> dlt (at_place xs (lower_bound xs x - 1)) x = true) /\
  (lower_bound xs x < length xs -> dlt (at_place xs (lower_bound xs x)) x = false).
Proof. destruct (bisect_ends (fun i => dlt (at_place xs i) x) (length xs) 0 (length xs) (le_n _)) as [A B]. cbv zeta in A, B.
  fold (lower_bound xs x) in A, B. split; intros H; [now apply A|apply B; lia]. Qed.
(** Not a number: right of everything for one, left of everything for the other. *)
Lemma upper_nan xs : upper_bound xs S754_nan = length xs.
Proof.
  pose proof (upper_range xs S754_nan). destruct (upper_ends xs S754_nan) as [_ B].
  destruct (Nat.eq_dec (upper_bound xs S754_nan) (length xs)) as [E|E]; [exact E|].
  specialize (B ltac:(lia)). now rewrite (proj1 (not_nan_lt _)) in B.
Qed.
Lemma lower_nan xs : lower_bound xs S754_nan = 0.
Proof.
  destruct (lower_ends xs S754_nan) as [A _]. destruct (lower_bound xs S754_nan) as [|k] eqn:E; [reflexivity|].
  specialize (A ltac:(lia)). now rewrite (proj2 (not_nan_lt _)) in A.
Qed.
(** Zero is never answered when the first place is not right of the question. *)
Lemma upper_pos x0 xs x : dlt x x0 = false -> 0 < upper_bound (x0 :: xs) x.
Proof.
  intros H. destruct (upper_ends (x0 :: xs) x) as [_ B]. destruct (upper_bound (x0 :: xs) x) as [|k] eqn:E; [|lia].
  specialize (B ltac:(cbn [length]; lia)). unfold at_place in B. cbn [nth] in B. congruence.
Qed.

(** ** Splines *)
Lemma increasing_number xs i : increasing xs -> i < length xs -> number (nth i xs S754_nan).
Proof. intros [H _] Hi. rewrite Forall_forall in H. apply H. now apply nth_In. Qed.
Lemma spline_inside segs x : segs <> [] -> exists i s, nth_error segs i = Some s /\ spline_at segs x = Ok (piece_at s x) /\
  (number x -> increasing (map px segs) -> right_interval (map px segs) (length segs) i x).
Proof.
  intros Hs. destruct segs as [|s0 segs]; [congruence|]. unfold spline_at. destruct (dlt x (px s0)) eqn:E.
  - exists 0, s0. split; [reflexivity|]. split; [reflexivity|]. intros Hx [_ Hi]. unfold right_interval. cbn [length]. split; [lia|]. split; [now left|].
    destruct segs as [|s1 segs]; [now left|right]. cbn [map nth]. apply less_trans with (px s0); [now apply dlt_less|].
    apply (Hi 0 1); [lia|cbn [map length]; lia].
  - set (l := s0 :: segs) in *. assert (Hp : 0 < upper_bound (map px l) x) by (subst l; cbn [map]; now apply upper_pos).
    pose proof (upper_range (map px l) x) as Hr. rewrite map_length in Hr. pose proof (upper_ends (map px l) x) as [A B].
    destruct (upper_bound (map px l) x) as [|i]; [lia|]. destruct (nth_error l i) as [s|] eqn:Hn; [|apply nth_error_None in Hn; lia].
    exists i, s. split; [exact Hn|]. split; [reflexivity|]. intros Hx Hi. unfold right_interval. split; [lia|]. split.
    + right. specialize (A Hp). cbn [Nat.sub] in A. rewrite Nat.sub_0_r in A. apply dlt_false in A.
      apply not_less; trivial. apply increasing_number; [exact Hi|]. rewrite map_length. lia.
    + rewrite map_length in B. destruct (Nat.eq_dec (Datatypes.S i) (length l)) as [L|L]; [now left|right]. apply dlt_less. apply B. lia.
Qed.
Lemma piece_nan s : piece_at s S754_nan = S754_nan.
Proof. unfold piece_at, dadd, dmul, dsub. cbn [SFsub]. destruct (p3 s); reflexivity. Qed.
Lemma spline_nan segs : segs <> [] -> spline_at segs S754_nan = Ok S754_nan.
Proof. intros H. destruct (spline_inside segs S754_nan H) as (i & s & _ & -> & _). now rewrite piece_nan. Qed.

Lemma turn_ok xs ys i L NE : 
  (exists s L' NE', turn xs ys i L NE = Ok (s, L', NE') /\ px s = nth i xs S754_nan /\ p0 s = nth i ys S754_nan /\
      let h := dsub (nth (Datatypes.S i) xs S754_nan) (nth i xs S754_nan) in ~ less h zero /\ ~ same h zero) \/
  (turn xs ys i L NE = Throw RuntimeError /\ let h := dsub (nth (Datatypes.S i) xs S754_nan) (nth i xs S754_nan) in less h zero \/ same h zero).
Proof.
  unfold turn, at_place, nan. set (h := dsub (nth (Datatypes.S i) xs S754_nan) (nth i xs S754_nan)).
  destruct (dlt h zero) eqn:E1; [right; split; [reflexivity|left; now apply dlt_less]|].
  destruct (deq h zero) eqn:E2.
  - right; split; [reflexivity|right]. unfold deq, SFeqb in E2. unfold same. destruct (SFcompare h zero) as [[]|]; congruence.
  - left. destruct (if dle zero L then _ else _) as [L_i NE_i]. eexists _, _, _. split; [reflexivity|]. cbn [px p0]. repeat split.
    + now apply dlt_false.
    + unfold same. intros K. unfold deq, SFeqb in E2. rewrite K in E2. discriminate.
Qed.
Lemma turns_ok xs ys : forall left i L NE,
  (exists l, turns xs ys i left L NE = Ok l /\ length l = left /\
     (forall k s, nth_error l k = Some s -> px s = nth (i + k) xs S754_nan /\ p0 s = nth (i + k) ys S754_nan) /\
     (forall k, k < left -> let h := dsub (nth (Datatypes.S (i + k)) xs S754_nan) (nth (i + k) xs S754_nan) in ~ less h zero /\ ~ same h zero)) \/
  (turns xs ys i left L NE = Throw RuntimeError /\
     exists k, k < left /\ let h := dsub (nth (Datatypes.S (i + k)) xs S754_nan) (nth (i + k) xs S754_nan) in less h zero \/ same h zero).
Proof.
  induction left as [|left IH]; intros i L NE; cbn [turns].
  - left. exists []. repeat split; intros; try lia; destruct k; discriminate.
  - destruct (turn_ok xs ys i L NE) as [(s & L' & NE' & -> & Hx & Hy & Hh)|[-> Hh]].
    + destruct (IH (Datatypes.S i) L' NE') as [(l & -> & Hl & Hn & Hk)|(-> & k & Hk & H)].
      * left. exists (s :: l). split; [reflexivity|]. split; [cbn [length]; lia|]. split.
        -- intros [|k] s' Hs'; cbn [nth_error] in Hs'; [injection Hs' as <-; now rewrite Nat.add_0_r|].
           rewrite <- Nat.add_succ_comm. now apply Hn.
        -- intros [|k] Hk'; [now rewrite Nat.add_0_r|]. rewrite <- Nat.add_succ_comm. apply Hk. lia.
      * right. split; [reflexivity|]. exists (Datatypes.S k). split; [lia|]. now rewrite <- Nat.add_succ_comm.
    + right. split; [reflexivity|]. exists 0. split; [lia|]. now rewrite Nat.add_0_r.
Qed.
Lemma sub_self x : finite x -> exists s, dsub x x = S754_zero s.
Proof.
  destruct x as [[]|[]| |s m e]; cbn [finite]; intros H; try tauto; [now exists false|now exists false|].
  exists false. unfold dsub, SFsub. now rewrite Z.sub_diag.
Qed.
Lemma mul_zero x s : finite x -> exists s', dmul x (S754_zero s) = S754_zero s'.
Proof. destruct x as [b|b| |b m e]; cbn [finite]; intros H; try tauto; [exists (xorb b s)|exists (xorb b s)]; reflexivity. Qed.
Lemma zero_add s x : finite x -> finite (dadd (S754_zero s) x) /\ same (dadd (S754_zero s) x) x.
Proof.
  destruct x as [b|b| |b m e]; cbn [finite]; intros H; try tauto.
  - unfold dadd, SFadd. destruct (Bool.eqb s b); split; cbn; trivial; reflexivity.
  - split; [exact I|]. unfold same, dadd. cbn [SFadd SFcompare]. rewrite Z.compare_refl. change (Pcompare m m Eq) with (Pos.compare m m).
    rewrite Pos.compare_refl. now destruct b.
Qed.
Lemma piece_node s : finite (px s) -> finite (p0 s) -> finite (p1 s) -> finite (p2 s) -> finite (p3 s) -> same (piece_at s (px s)) (p0 s).
Proof.
  intros Hx H0 H1 H2 H3. unfold piece_at. destruct (sub_self _ Hx) as [b ->].
  destruct (mul_zero _ b H3) as [b3 ->]. destruct (zero_add b3 _ H2) as [F2 _].
  destruct (mul_zero _ b F2) as [b2 ->]. destruct (zero_add b2 _ H1) as [F1 _].
  destruct (mul_zero _ b F1) as [b1 ->]. now destruct (zero_add b1 _ H0).
Qed.

(** ** Cells *)
Lemma axis_inside xs x : 2 <= length xs -> exists i, axis_cell xs x = Ok i /\ Datatypes.S i < length xs /\
  (x = S754_nan -> Datatypes.S (Datatypes.S i) = length xs) /\
  (number x -> increasing xs -> right_interval xs (length xs - 1) i x).
Proof.
  intros Hn. destruct xs as [|x0 xs']; [cbn in Hn; lia|]. unfold axis_cell. set (xs := x0 :: xs') in *. destruct (dlt x x0) eqn:E.
  - exists 0. destruct (Nat.eqb_spec 0 (length xs - 1)) as [K|K]; [lia|]. destruct (Nat.ltb_spec 1 (length xs)) as [K1|K1]; [|lia].
    split; [reflexivity|]. split; [lia|]. split; [intros ->; now rewrite (proj1 (not_nan_lt _)) in E|].
    intros Hx [_ Hi]. split; [lia|]. split; [now left|right]. apply less_trans with x0; [now apply dlt_less|]. now apply (Hi 0 1); [lia|].
  - assert (Hp : 0 < upper_bound xs x) by now apply upper_pos.
    pose proof (upper_range xs x) as Hr. pose proof (upper_ends xs x) as [A B].
    assert (HN : x = S754_nan -> upper_bound xs x = length xs) by (intros ->; apply upper_nan).
    destruct (upper_bound xs x) as [|k]; [lia|]. specialize (A Hp). cbn [Nat.sub] in A. rewrite Nat.sub_0_r in A. apply dlt_false in A.
    assert (Hb : forall j, j <= k -> number x -> increasing xs -> at_most (nth j xs S754_nan) x).
    { intros j Hj Hx Hi. assert (Hk : at_most (nth k xs S754_nan) x) by (apply not_less; trivial; apply increasing_number; [exact Hi|lia]).
      destruct (Nat.eq_dec j k) as [->|K]; [exact Hk|]. left. apply less_at_most with (nth k xs S754_nan); [|exact Hk]. apply Hi; lia. }
    destruct (Nat.eqb_spec k (length xs - 1)) as [K|K].
    + destruct (Nat.eqb_spec k 0) as [K0|K0]; [lia|]. exists (k - 1). destruct (Nat.ltb_spec (Datatypes.S (k - 1)) (length xs)) as [K1|K1]; [|lia].
      split; [reflexivity|]. split; [lia|]. split; [intros _; lia|]. intros Hx Hi. split; [lia|]. split; [right; apply Hb; trivial; lia|left; lia].
    + exists k. destruct (Nat.ltb_spec (Datatypes.S k) (length xs)) as [K1|K1]; [|lia]. split; [reflexivity|]. split; [lia|].
      split; [intros H; specialize (HN H); lia|]. intros Hx Hi. split; [lia|]. split; [right; apply Hb; trivial|right]. apply dlt_less. apply B. lia.
Qed.
Lemma local_nan xs i : local xs i S754_nan = S754_nan.
Proof. reflexivity. Qed.
Lemma mul_nan a : dmul a S754_nan = S754_nan /\ dmul S754_nan a = S754_nan.
Proof. now destruct a. Qed.
Lemma add_nan a : dadd a S754_nan = S754_nan /\ dadd S754_nan a = S754_nan.
Proof. now destruct a. Qed.
Lemma sub_nan a : dsub a S754_nan = S754_nan /\ dsub S754_nan a = S754_nan.
Proof. now destruct a. Qed.
Lemma div_nan a : ddiv a S754_nan = S754_nan /\ ddiv S754_nan a = S754_nan.
Proof. now destruct a. Qed.
Lemma root_nan : droot S754_nan = S754_nan.
Proof. reflexivity. Qed.
#[export] Hint Rewrite (fun a => proj1 (mul_nan a)) (fun a => proj2 (mul_nan a)) (fun a => proj1 (add_nan a)) (fun a => proj2 (add_nan a))
  (fun a => proj1 (sub_nan a)) (fun a => proj2 (sub_nan a)) (fun a => proj1 (div_nan a)) (fun a => proj2 (div_nan a)) root_nan : nans.
Lemma row_nan c : row c S754_nan = S754_nan.
Proof. unfold row. now autorewrite with nans. Qed.
Lemma next_row_nan r t u c : r = S754_nan \/ t = S754_nan -> next_row r t u c = S754_nan.
Proof. intros [-> | ->]; unfold next_row; now autorewrite with nans. Qed.
Lemma bicubic_inside c xs ys x y : 2 <= length xs -> 2 <= length ys ->
  exists v, bicubic_at c xs ys false x y = Ok v /\ (x = S754_nan \/ y = S754_nan -> v = S754_nan).
Proof.
  intros Hx Hy. unfold bicubic_at. destruct (axis_inside xs x Hx) as (i & -> & _). destruct (axis_inside ys y Hy) as (j & -> & _).
  eexists. split; [reflexivity|]. intros [-> | ->].
  - rewrite local_nan. apply next_row_nan. now right.
  - rewrite local_nan. do 3 (apply next_row_nan; left). apply row_nan.
Qed.
(** The lower corner of a cell: the coefficient without powers. *)
Lemma row_zero c b : finite (c 0) -> finite (c 1) -> finite (c 2) -> finite (c 3) -> same (row c (S754_zero b)) (c 0) /\ finite (row c (S754_zero b)).
Proof.
  intros H0 H1 H2 H3. unfold row. destruct (mul_zero _ b H3) as [b3 ->]. destruct (zero_add b3 _ H2) as [F2 _].
  destruct (mul_zero _ b F2) as [b2 ->]. destruct (zero_add b2 _ H1) as [F1 _].
  destruct (mul_zero _ b F1) as [b1 ->]. destruct (zero_add b1 _ H0). now split.
Qed.
Lemma next_row_zero r c a b : finite r -> finite (c 0) -> finite (c 1) -> finite (c 2) -> finite (c 3) ->
  same (next_row r (S754_zero a) (S754_zero b) c) (c 0) /\ finite (next_row r (S754_zero a) (S754_zero b) c).
Proof.
  intros Hr H0 H1 H2 H3. unfold next_row. destruct (mul_zero _ a Hr) as [a1 ->]. destruct (mul_zero _ b H3) as [b3 ->]. destruct (zero_add b3 _ H2) as [F2 _].
  destruct (mul_zero _ b F2) as [b2 ->]. destruct (zero_add b2 _ H1) as [F1 _].
  destruct (mul_zero _ b F1) as [b1 ->]. assert (E : exists s, dadd (S754_zero a1) (S754_zero b1) = S754_zero s) by (destruct a1, b1; eexists; reflexivity).
  destruct E as [s ->]. destruct (zero_add s _ H0). now split.
Qed.

(** ** Zenith and energy nodes *)
Lemma last_nth (xs : list double) : last xs nan = nth (length xs - 1) xs S754_nan.
Proof. induction xs as [|x [|y xs] IH]; [reflexivity|reflexivity|]. cbn [last length] in *. rewrite IH. cbn [Nat.sub nth]. destruct (length xs); reflexivity. Qed.
Lemma atm_node_number xs x : number x -> increasing xs -> 2 <= length xs ->
  let lo := nth 0 xs S754_nan in let hi := nth (length xs - 1) xs S754_nan in
  (less x lo \/ less hi x) /\ atm_node xs x = Throw RuntimeError \/
  (at_most lo x /\ at_most x hi) /\ exists i, atm_node xs x = Ok i /\ Datatypes.S i < length xs /\
     at_most (nth i xs S754_nan) x /\ at_most x (nth (Datatypes.S i) xs S754_nan).
Proof.
  intros Hx Hi Hn lo hi. destruct xs as [|x0 xs']; [cbn in Hn; lia|]. unfold atm_node. rewrite last_nth. set (xs := x0 :: xs') in *.
  fold hi. change x0 with lo. assert (Nlo : number lo) by (apply increasing_number; trivial; lia). assert (Nhi : number hi) by (apply increasing_number; trivial; lia).
  destruct (dlt x lo) eqn:E1; [left; split; [left; now apply dlt_less|reflexivity]|].
  destruct (dlt hi x) eqn:E2; [left; split; [right; now apply dlt_less|reflexivity]|]. cbn [orb].
  apply dlt_false in E1. apply dlt_false in E2. right. split; [split; now apply not_less|].
  pose proof (lower_range xs x) as Hr. destruct (lower_ends xs x) as [A B]. set (k := lower_bound xs x) in *.
  destruct (Nat.eqb_spec k (length xs)) as [K|K].
  - exfalso. apply E2. rewrite K in A. apply dlt_less. unfold hi. apply A. lia.
  - exists (k - 1). split; [reflexivity|]. specialize (B ltac:(lia)). apply dlt_false in B. unfold at_place, nan in *.
    destruct (Nat.eq_dec k 0) as [K0|K0].
    + rewrite K0 in *. cbn [Nat.sub]. assert (at_most x lo) as Hl by (apply not_less; trivial). split; [lia|]. split; [now apply not_less|].
      left. assert (H01 : less lo (nth 1 xs S754_nan)) by (apply Hi; lia). destruct Hl as [Hl|Hl]; [now apply less_trans with lo|].
      apply at_most_less with lo; [now right|exact H01].
    + replace (Datatypes.S (k - 1)) with k by lia. specialize (A ltac:(lia)). apply dlt_less in A. split; [lia|]. split; [now left|].
      apply not_less; trivial. apply increasing_number; trivial. lia.
Qed.
Lemma atm_node_nan xs : xs <> [] -> atm_node xs S754_nan = Ok 0.
Proof.
  intros H. destruct xs as [|x0 xs]; [congruence|]. unfold atm_node. rewrite (proj1 (not_nan_lt _)), (proj2 (not_nan_lt _)). cbn [orb].
  rewrite lower_nan. reflexivity.
Qed.
(** Whatever is in the grids, nothing is read outside of them. *)
Lemma atm_node_any xs x : 2 <= length xs -> atm_node xs x = Throw RuntimeError \/ exists i, atm_node xs x = Ok i /\ Datatypes.S i < length xs.
Proof.
  intros Hn. destruct xs as [|x0 xs']; [cbn in Hn; lia|]. unfold atm_node. set (xs := x0 :: xs') in *.
  destruct (dlt x x0 || dlt (last xs nan) x); [now left|]. pose proof (lower_range xs x) as Hr.
  destruct (Nat.eqb_spec (lower_bound xs x) (length xs)) as [K|K]; [now left|right]. eexists. split; [reflexivity|]. lia.
Qed.
Lemma lin_inter_nan xM xP yM yP : lin_inter S754_nan xM xP yM yP = S754_nan.
Proof. unfold lin_inter. now autorewrite with nans. Qed.

(** ** Media *)
Lemma variable_nan cm xs segs : xs <> [] -> segs <> [] -> variable_at cm xs segs S754_nan = Ok S754_nan.
Proof.
  intros Hx Hs. destruct xs as [|x0 xs]; [congruence|]. unfold variable_at. autorewrite with nans. rewrite (proj1 (not_nan_lt _)), (proj2 (not_nan_lt _)).
  now apply spline_nan.
Qed.
Lemma sun_nan first xs segs : xs <> [] -> segs <> [] -> sun_radial first xs segs S754_nan = Ok S754_nan.
Proof.
  intros Hx Hs. destruct xs as [|x0 xs]; [congruence|]. unfold sun_radial. rewrite (proj1 (not_nan_lt _)), (proj2 (not_nan_lt _)).
  now apply spline_nan.
Qed.
Lemma chord_nan radius b : chord_radius radius b S754_nan = S754_nan.
Proof. unfold chord_radius, sqr. now autorewrite with nans. Qed.
Lemma earth_nan km radius m baseline : earth_at km radius m baseline S754_nan = Throw RuntimeError.
Proof. unfold earth_at, sqr. now autorewrite with nans. Qed.
Lemma atm_radius_nan km earth atm cosphi L : atm_radius km earth atm cosphi L S754_nan = zero.
Proof. unfold atm_radius, sqr. now autorewrite with nans. Qed.
