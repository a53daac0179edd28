(** C99: questions with any double, also infinities and what is not a number. *)
From Coq Require Import List Arith ZArith Bool Lia.
From Coq Require Import SpecFloat.
From Verif Require Import Err DblModel DblSpec DblProofs.
Import ListNotations.

Definition four : double := S754_finite false 4503599627370496 (-50).
Definition tenth : double := S754_finite false 7205759403792794 (-56).
Definition infinity : double := S754_infinity false.

(** The order of doubles that are numbers: what the checks and searches rest on. *)
Theorem c99_order :
  (forall a, ~ less a a) /\ (forall a b c, less a b -> less b c -> less a c) /\
  (forall a b, number a -> number b -> less a b \/ same a b \/ less b a) /\
  (forall a b, less a b -> number a /\ number b).
Proof.
  split; [exact less_irrefl|]. split; [exact less_trans|]. split; [|exact less_number].
  intros a b Ha Hb. destruct (dlt a b) eqn:E; [left; now apply dlt_less|right]. apply dlt_false in E. apply not_less in E; trivial.
  destruct E as [E|E]; [now right|left]. unfold same in *. pose proof (compare_key a b Ha Hb) as H. pose proof (compare_key b a Hb Ha) as G. rewrite E in G.
  destruct (SFcompare a b) as [[]|]; trivial; try contradiction; rewrite G in H; destruct (key a) as [[]]; cbn [klt] in H; lia.
Qed.
Print Assumptions c99_order.

(** A search stays in the table, whatever the table and the question are; in a table in order it finds the place. *)
Theorem c99_search : forall xs x,
  upper_bound xs x <= length xs /\ lower_bound xs x <= length xs /\
  (number x -> increasing xs -> forall i, i < length xs ->
     (i < upper_bound xs x <-> at_most (nth i xs S754_nan) x) /\ (i < lower_bound xs x <-> less (nth i xs S754_nan) x)).
Proof.
  intros xs x. pose proof (upper_range xs x) as Hu. pose proof (lower_range xs x) as Hl. split; [exact Hu|]. split; [exact Hl|].
  intros Hx Hi i Hn. pose proof (increasing_number xs i Hi Hn) as Ni. destruct (upper_ends xs x) as [A B]. destruct (lower_ends xs x) as [C D].
  destruct Hi as [Hnum Hi]. split; split; intros H.
  - specialize (A ltac:(lia)). apply dlt_false in A. apply not_less in A; trivial; [|apply increasing_number; [now split|lia]].
    destruct (Nat.eq_dec i (upper_bound xs x - 1)) as [->|K]; [exact A|]. left. eapply less_at_most; [|exact A]. apply Hi; lia.
  - destruct (Nat.lt_ge_cases i (upper_bound xs x)) as [K|K]; [exact K|exfalso]. specialize (B ltac:(lia)). apply dlt_less in B.
    apply (less_irrefl x). destruct (Nat.eq_dec (upper_bound xs x) i) as [E|E].
    + rewrite E in B. now apply less_at_most with (nth i xs S754_nan).
    + apply less_at_most with (nth i xs S754_nan); [|exact H]. eapply less_trans; [exact B|]. apply Hi; lia.
  - specialize (C ltac:(lia)). apply dlt_less in C. destruct (Nat.eq_dec i (lower_bound xs x - 1)) as [->|K]; [exact C|].
    eapply less_trans; [|exact C]. apply Hi; lia.
  - destruct (Nat.lt_ge_cases i (lower_bound xs x)) as [K|K]; [exact K|exfalso]. specialize (D ltac:(lia)). apply dlt_false in D. apply D.
    destruct (Nat.eq_dec (lower_bound xs x) i) as [E|E]; [now rewrite E|]. eapply less_trans; [|exact H]. apply Hi; lia.
Qed.
Print Assumptions c99_search.

(** A spline with segments answers every double with one of them, whatever they hold: for a number and segments in order,
    the one it belongs to; for NaN the answer is NaN. *)
Theorem c99_spline : forall segs x, segs <> [] -> exists i s, nth_error segs i = Some s /\ spline_at segs x = Ok (piece_at s x) /\
  (number x -> increasing (map px segs) -> right_interval (map px segs) (length segs) i x) /\
  (x = S754_nan -> spline_at segs x = Ok S754_nan).
Proof.
  intros segs x H. destruct (spline_inside segs x H) as (i & s & H1 & H2 & H3). exists i, s. repeat split; trivial; try apply H3; trivial.
  intros ->. now apply spline_nan.
Qed.
Print Assumptions c99_spline.

(** What is needed to make one, and what is made: a segment for each interval, which starts at its node. *)
Theorem c99_spline_made : forall xs ys,
  (exists segs, spline_of xs ys = Ok segs /\ 3 <= length xs /\ length ys = length xs /\ length segs = length xs - 1 /\
     (forall i s, nth_error segs i = Some s -> px s = nth i xs S754_nan /\ p0 s = nth i ys S754_nan) /\
     (forall i, S i < length xs -> let h := dsub (nth (S i) xs S754_nan) (nth i xs S754_nan) in ~ less h zero /\ ~ same h zero)) \/
  (spline_of xs ys = Throw RuntimeError /\
     (length xs <> length ys \/ length xs < 3 \/
      exists i, S i < length xs /\ let h := dsub (nth (S i) xs S754_nan) (nth i xs S754_nan) in less h zero \/ same h zero)).
Proof.
  intros xs ys. unfold spline_of. destruct (Nat.eqb_spec (length xs) (length ys)) as [E|E]; [|right; split; [reflexivity|now left]]. cbn [negb].
  destruct (Nat.ltb_spec (length xs) 3) as [K|K]; [right; split; [reflexivity|right; now left]|].
  destruct (turns_ok xs ys (length xs - 1) 0 (dopp one) (dopp one)) as [(l & -> & Hl & Hn & Hk)|(-> & k & Hk & H)].
  - left. exists l. split; [reflexivity|]. split; [exact K|]. split; [now symmetry|]. split; [exact Hl|]. split; [exact Hn|]. intros i Hi. apply (Hk i). lia.
  - right. split; [reflexivity|]. right. right. exists k. split; [lia|exact H].
Qed.
Print Assumptions c99_spline_made.

(** At every node but the last the value tabulated comes back to the bit (but for the sign of a zero), if no coefficient overflows. *)
Theorem c99_spline_node : forall xs ys segs, spline_of xs ys = Ok segs -> increasing (map px segs) ->
  forall i s, nth_error segs i = Some s -> finite (px s) -> finite (p0 s) -> finite (p1 s) -> finite (p2 s) -> finite (p3 s) ->
  exists v, spline_at segs (nth i xs S754_nan) = Ok v /\ same v (nth i ys S754_nan).
Proof.
  intros xs ys segs H Hi i s Hs Fx F0 F1 F2 F3.
  destruct (c99_spline_made xs ys) as [(l & E & _ & _ & _ & Hn & _)|[E _]]; [|congruence]. rewrite H in E. injection E as <-.
  destruct (Hn i s Hs) as [Ex Ey]. rewrite <- Ex, <- Ey.
  assert (Hne : segs <> []) by (intros ->; destruct i; discriminate).
  destruct (spline_inside segs (px s) Hne) as (j & s' & Hj & -> & Hr). exists (piece_at s' (px s)). split; [reflexivity|].
  assert (Nx : number (px s)) by (unfold number; intros K; rewrite K in Fx; exact Fx).
  destruct (Hr Nx Hi) as (Lj & Lo & Up).
  assert (Hin : i < length segs) by (apply nth_error_Some; congruence).
  assert (Pn : forall k t, nth_error segs k = Some t -> nth k (map px segs) S754_nan = px t).
  { intros k t Ht. rewrite (nth_indep _ _ (px t)) by (rewrite map_length; apply nth_error_Some; congruence). rewrite map_nth. now rewrite (nth_error_nth _ _ _ Ht). }
  assert (i = j).
  { destruct (Nat.lt_trichotomy i j) as [K|[K|K]]; [|exact K|]; exfalso.
    - destruct Lo as [->|Lo]; [lia|]. apply (less_irrefl (px s)). eapply less_at_most; [|exact Lo]. rewrite <- (Pn i s Hs). apply Hi; [exact K|rewrite map_length; lia].
    - destruct Up as [Up|Up]; [lia|]. apply (less_irrefl (px s)). apply less_at_most with (nth (S j) (map px segs) S754_nan); [exact Up|].
      rewrite <- (Pn i s Hs). destruct (Nat.eq_dec i (S j)) as [->|K2].
      + right. rewrite (Pn _ s Hs). unfold same. pose proof (compare_key (px s) (px s) Nx Nx) as G. pose proof (less_irrefl (px s)) as I. unfold less in I.
        destruct (SFcompare (px s) (px s)) as [[]|]; try tauto; destruct (key (px s)) as [[]]; cbn [klt] in G; lia.
      + left. apply Hi; [lia|rewrite map_length; lia]. }
  subst j. rewrite Hs in Hj. injection Hj as <-. now apply piece_node.
Qed.
Print Assumptions c99_spline_node.
Example c99_spline_case : exists segs, spline_of [zero; three; four] [one; two; four] = Ok segs /\ increasing (map px segs) /\
  length segs = 2 /\ Forall (fun s => finite (px s) /\ finite (p0 s) /\ finite (p1 s) /\ finite (p2 s) /\ finite (p3 s)) segs /\
  spline_at segs three = Ok two /\ spline_at segs S754_nan = Ok S754_nan.
Proof.
  eexists. split; [vm_compute; reflexivity|]. split; [|split; [reflexivity|split; [repeat constructor|split; vm_compute; reflexivity]]].
  split; [repeat constructor; discriminate|]. intros [|[|[|i]]] [|[|[|j]]] H G; cbn in G; try lia; vm_compute; reflexivity.
Qed.

(** At the last node it need not: the table 0, 3, 4 -> 1, 2, 4 gives 3.9999999999999996 at 4. *)
Theorem c99_last_node_refuted : exists xs ys segs, spline_of xs ys = Ok segs /\ increasing xs /\ Forall finite xs /\ Forall finite ys /\
  exists v, spline_at segs (last xs S754_nan) = Ok v /\ less v (last ys S754_nan).
Proof.
  exists [zero; three; four], [one; two; four]. eexists. split; [vm_compute; reflexivity|]. split.
  - split; [repeat constructor; discriminate|]. intros [|[|[|i]]] [|[|[|j]]] H G; cbn in G; try lia; vm_compute; reflexivity.
  - split; [repeat constructor|]. split; [repeat constructor|]. eexists. split; [vm_compute; reflexivity|]. vm_compute. reflexivity.
Qed.
Print Assumptions c99_last_node_refuted.
(** Abscissas that are not numbers pass the check of the order, and so do infinite ones. *)
Theorem c99_abscissas_refuted : 
  (exists segs, spline_of [zero; S754_nan; one] [zero; one; two] = Ok segs) /\
  (exists segs, spline_of [zero; infinity; infinity] [zero; one; two] = Ok segs).
Proof. split; eexists; vm_compute; reflexivity. Qed.
Print Assumptions c99_abscissas_refuted.

(** Cells of the interpolators in two and three dimensions: inside of the table, whatever is in it and whatever is asked; of a number, the cell it
    belongs to; of NaN the last; an answer to NaN is NaN. *)
Theorem c99_cell : forall xs x, 2 <= length xs -> exists i, axis_cell xs x = Ok i /\ S i < length xs /\
  (x = S754_nan -> S (S i) = length xs) /\ (number x -> increasing xs -> right_interval xs (length xs - 1) i x).
Proof. exact axis_inside. Qed.
Print Assumptions c99_cell.
Theorem c99_interpolators : forall xs ys zs x y z, 2 <= length xs -> 2 <= length ys -> 2 <= length zs ->
  (forall c, exists v, bicubic_at c xs ys false x y = Ok v /\ (x = S754_nan \/ y = S754_nan -> v = S754_nan)) /\
  (exists i j k, tricubic_cell xs ys zs x y z = Ok (i, j, k) /\ S i < length xs /\ S j < length ys /\ S k < length zs).
Proof.
  intros xs ys zs x y z Hx Hy Hz. split; [intros c; now apply bicubic_inside|]. unfold tricubic_cell.
  destruct (axis_inside xs x Hx) as (i & -> & A & _). destruct (axis_inside ys y Hy) as (j & -> & B & _). destruct (axis_inside zs z Hz) as (k & -> & C & _).
  now exists i, j, k.
Qed.
Print Assumptions c99_interpolators.
(** At the lower corner of a cell the value is the coefficient without powers, to the bit. *)
Theorem c99_corner : forall c xs ys x y i j, axis_cell xs x = Ok i -> axis_cell ys y = Ok j -> x = nth i xs S754_nan -> y = nth j ys S754_nan ->
  finite x -> finite y -> (forall a b, finite (c i j a b)) ->
  less zero (dsub (nth (S i) xs S754_nan) x) -> less zero (dsub (nth (S j) ys S754_nan) y) ->
  exists v, bicubic_at c xs ys false x y = Ok v /\ same v (c i j 0 0).
Proof.
  intros c xs ys x y i j Ei Ej Ex Ey Fx Fy Fc Hw Hw'.
  assert (T : exists b, local xs i x = S754_zero b).
  { unfold local, at_place, nan. rewrite <- Ex. destruct (sub_self x Fx) as [b ->]. destruct (dsub (nth (S i) xs S754_nan) x) as [s|s| |s m e]; vm_compute in Hw; try discriminate; eexists; reflexivity. }
  assert (U : exists b, local ys j y = S754_zero b).
  { unfold local, at_place, nan. rewrite <- Ey. destruct (sub_self y Fy) as [b ->]. destruct (dsub (nth (S j) ys S754_nan) y) as [s|s| |s m e]; vm_compute in Hw'; try discriminate; eexists; reflexivity. }
  destruct T as [a Ta], U as [b Ub]. unfold bicubic_at. rewrite Ei, Ej, Ta, Ub. eexists. split; [reflexivity|].
  destruct (row_zero (c i j 3) b (Fc 3 0) (Fc 3 1) (Fc 3 2) (Fc 3 3)) as [_ F3].
  destruct (next_row_zero _ (c i j 2) a b F3 (Fc 2 0) (Fc 2 1) (Fc 2 2) (Fc 2 3)) as [_ F2].
  destruct (next_row_zero _ (c i j 1) a b F2 (Fc 1 0) (Fc 1 1) (Fc 1 2) (Fc 1 3)) as [_ F1].
  exact (proj1 (next_row_zero _ (c i j 0) a b F1 (Fc 0 0) (Fc 0 1) (Fc 0 2) (Fc 0 3))).
Qed.
Print Assumptions c99_corner.
Example c99_cell_case : axis_cell [zero; one; two] S754_nan = Ok 1 /\ axis_cell [zero; one; two] infinity = Ok 1 /\
  axis_cell [zero; one; two] (S754_infinity true) = Ok 0 /\ axis_cell [zero; one; two] one = Ok 1 /\ axis_cell [zero; one; two] two = Ok 1 /\
  exists v, bicubic_at (fun _ _ _ _ => one) [zero; one; two] [zero; one; two] false one zero = Ok v /\ same v one.
Proof. repeat (split; [vm_compute; reflexivity|]). eexists. split; [vm_compute; reflexivity|]. vm_compute. reflexivity. Qed.

(** The atmospheric evaluation: nothing is read outside of the grids, whatever they hold; a number outside of its grid, also an infinity, is refused,
    one inside is answered from the nodes around it. *)
Theorem c99_atm : forall trace cosths enus costh enu, 2 <= length cosths -> 2 <= length enus ->
  atm_eval trace cosths enus costh enu <> UB /\
  (number costh -> number enu -> increasing cosths -> increasing enus ->
     let inside xs x := at_most (nth 0 xs S754_nan) x /\ at_most x (nth (length xs - 1) xs S754_nan) in
     (inside cosths costh /\ inside enus enu /\ (exists v, atm_eval trace cosths enus costh enu = Ok v)) \/
     ((~ inside cosths costh \/ ~ inside enus enu) /\ atm_eval trace cosths enus costh enu = Throw RuntimeError)).
Proof.
  intros trace cosths enus costh enu Hc He. split.
  - unfold atm_eval. destruct (atm_node_any cosths costh Hc) as [->|(k & -> & Hk)]; [discriminate|]. cbn [obind].
    destruct (atm_node_any enus enu He) as [->|(e & -> & Hi)]; [discriminate|]. cbn [obind].
    apply Nat.ltb_lt in Hk. apply Nat.ltb_lt in Hi. rewrite Hk, Hi. discriminate.
  - intros Nc Ne Ic Ie inside. unfold atm_eval.
    assert (Out : forall xs x, less x (nth 0 xs S754_nan) \/ less (nth (length xs - 1) xs S754_nan) x -> ~ inside xs x).
    { intros xs x [H|H] [A B]; [apply (less_irrefl x); now apply less_at_most with (nth 0 xs S754_nan)|
        apply (less_irrefl x); now apply at_most_less with (nth (length xs - 1) xs S754_nan)]. }
    destruct (atm_node_number cosths costh Nc Ic Hc) as [[O ->]|[In (k & -> & Hk & _)]]; [right; split; [left; now apply Out|reflexivity]|]. cbn [obind].
    destruct (atm_node_number enus enu Ne Ie He) as [[O ->]|[In' (e & -> & Hi & _)]]; [right; split; [right; now apply Out|reflexivity]|]. cbn [obind].
    left. apply Nat.ltb_lt in Hk. apply Nat.ltb_lt in Hi. rewrite Hk, Hi. split; [exact In|]. split; [exact In'|]. eexists. reflexivity.
Qed.
Print Assumptions c99_atm.
Theorem c99_atm_nodes : forall xs x i, number x -> increasing xs -> 2 <= length xs -> atm_node xs x = Ok i ->
  S i < length xs /\ at_most (nth i xs S754_nan) x /\ at_most x (nth (S i) xs S754_nan).
Proof.
  intros xs x i Hx Hi Hn E. destruct (atm_node_number xs x Hx Hi Hn) as [[_ K]|[_ (j & K & H)]]; [congruence|]. rewrite E in K. injection K as <-. exact H.
Qed.
Print Assumptions c99_atm_nodes.
(** A zenith that is not a number is not refused: the answer comes from the first nodes, and is not a number. *)
Theorem c99_atm_nan_refuted : forall trace cosths enus e, 2 <= length cosths -> 2 <= length enus -> atm_node enus e <> Throw RuntimeError ->
  atm_eval trace cosths enus S754_nan e = Ok S754_nan /\ atm_node cosths S754_nan = Ok 0.
Proof.
  intros trace cosths enus e Hc He Hn. unfold atm_eval. rewrite (atm_node_nan cosths) by (destruct cosths; [cbn in Hc; lia|discriminate]). split; [|reflexivity]. cbn [obind].
  destruct (atm_node_any enus e He) as [K|(i & -> & Hi)]; [congruence|]. cbn [obind]. apply Nat.ltb_lt in Hi.
  assert (Hc' : Nat.ltb 1 (length cosths) = true) by (apply Nat.ltb_lt; lia). rewrite Hi, Hc'. cbn [andb]. now rewrite lin_inter_nan.
Qed.
Print Assumptions c99_atm_nan_refuted.
Example c99_atm_case : 2 <= length [dopp one; zero; one] /\ increasing [dopp one; zero; one] /\
  atm_node [dopp one; zero; one] S754_nan = Ok 0 /\ atm_node [dopp one; zero; one] half = Ok 1 /\
  atm_node [dopp one; zero; one] infinity = Throw RuntimeError /\ atm_node [dopp one; zero; one] one = Ok 1.
Proof.
  split; [cbn; lia|]. split; [|repeat split; vm_compute; reflexivity].
  split; [repeat constructor; discriminate|]. intros [|[|[|i]]] [|[|[|j]]] H G; cbn in G; try lia; vm_compute; reflexivity.
Qed.

(** A single object asked at an energy: any number outside, also an infinity, is refused; NaN is handed to SQuIDS. *)
Theorem c99_energy : forall ask es e, number e -> increasing es -> es <> [] ->
  (less e (nth 0 es S754_nan) \/ less (nth (length es - 1) es S754_nan) e) /\ single_eval ask es e = Throw RuntimeError \/
  (at_most (nth 0 es S754_nan) e /\ at_most e (nth (length es - 1) es S754_nan)) /\ single_eval ask es e = Ok (ask e).
Proof.
  intros ask es e He Hi Hn. destruct es as [|e0 es']; [congruence|]. unfold single_eval. rewrite last_nth. set (es := e0 :: es') in *.
  change e0 with (nth 0 es S754_nan). assert (L : 0 < length es) by (cbn; lia).
  destruct (dlt e (nth 0 es S754_nan)) eqn:E1; [left; split; [left; now apply dlt_less|reflexivity]|].
  destruct (dlt (nth (length es - 1) es S754_nan) e) eqn:E2; [left; split; [right; now apply dlt_less|reflexivity]|].
  right. apply dlt_false in E1. apply dlt_false in E2. split; [|reflexivity]. split; apply not_less; trivial; apply increasing_number; trivial; lia.
Qed.
Print Assumptions c99_energy.
Theorem c99_energy_nan_refuted : forall ask es, es <> [] -> single_eval ask es S754_nan = Ok (ask S754_nan).
Proof. intros ask es H. destruct es as [|e es]; [congruence|]. unfold single_eval. now rewrite (proj1 (not_nan_lt _)), (proj2 (not_nan_lt _)). Qed.
Print Assumptions c99_energy_nan_refuted.

(** Media asked at a place that is not a number: the answer is not a number, and the Earth throws. *)
Theorem c99_media : forall cm xs segs first radius b, xs <> [] -> segs <> [] ->
  variable_at cm xs segs S754_nan = Ok S754_nan /\
  sun_density first xs segs radius S754_nan = Ok S754_nan /\ sun_ye first xs segs radius S754_nan = Ok S754_nan /\
  chord_density first xs segs radius b S754_nan = Ok S754_nan /\ chord_ye first xs segs radius b S754_nan = Ok S754_nan /\
  (forall km m baseline, earth_at km radius m baseline S754_nan = Throw RuntimeError).
Proof.
  intros cm xs segs first radius b Hx Hs. pose proof (sun_nan first xs segs Hx Hs) as S.
  split; [now apply variable_nan|]. unfold sun_density, sun_ye, chord_density, chord_ye. rewrite chord_nan, (proj2 (div_nan _)), S.
  unfold half_more. cbn [obind]. autorewrite with nans. repeat split. intros. apply earth_nan.
Qed.
Print Assumptions c99_media.
Example c99_media_case : exists segs, spline_of [zero; three; four] [one; two; four] = Ok segs /\
  variable_at one [zero; three; four] segs S754_nan = Ok S754_nan /\ variable_at one [zero; three; four] segs infinity = Ok zero /\
  variable_at one [zero; three; four] segs three = Ok two.
Proof. eexists. split; [vm_compute; reflexivity|]. repeat split; vm_compute; reflexivity. Qed.
(** The Earth with atmosphere answers as for its centre: a number. *)
Theorem c99_air_refuted : forall exp km earth atm m cosphi L,
  atm_radius km earth atm cosphi L S754_nan = zero /\
  (less (ddiv zero atm) (r_min m) -> atm_density exp km earth atm m cosphi L S754_nan = Ok (v_min m) /\ atm_ye km earth atm m cosphi L S754_nan = Ok (v_min m)).
Proof.
  intros exp km earth atm m cosphi L. pose proof (atm_radius_nan km earth atm cosphi L) as Hr. split; [exact Hr|]. intros H. apply dlt_less in H.
  unfold atm_density, atm_ye, atm_within. now rewrite Hr, H.
Qed.
Print Assumptions c99_air_refuted.
(** So it does infinitely far along a way. *)
Theorem c99_air_infinite_refuted : exists km earth atm m cosphi L, forall exp,
  atm_density exp km earth atm m cosphi L infinity = Ok (v_min m) /\ finite (v_min m) /\ finite L /\ less zero L /\ finite cosphi.
Proof.
  exists one, three, four, (Shells half two tenth one []), one, two. intros exp. repeat split; vm_compute; reflexivity.
Qed.
Print Assumptions c99_air_infinite_refuted.

(** Cross sections from tables: above the table everything is refused, also +infinity; NaN gives NaN (if log10 and pow do so). *)
Theorem c99_tables : forall log10 pow10 ten gev emin emax least segs e, 
  (less emax e -> total_at log10 pow10 ten emin emax least segs e = Throw RuntimeError /\
     forall t e2, single_at log10 pow10 gev emin emax least t e e2 = Throw RuntimeError) /\
  (log10 S754_nan = S754_nan -> pow10 S754_nan = S754_nan -> segs <> [] ->
     total_at log10 pow10 ten emin emax least segs S754_nan = Ok S754_nan /\
     (forall c xs ys e2, 2 <= length xs -> 2 <= length ys ->
        single_at log10 pow10 gev emin emax least (bicubic_at c xs ys false) S754_nan e2 = Ok S754_nan /\
        (~ less emax e2 -> less emin e2 -> single_at log10 pow10 gev emin emax least (bicubic_at c xs ys false) e2 S754_nan = Ok S754_nan))).
Proof.
  intros log10 pow10 ten gev emin emax least segs e. split.
  - intros H. apply dlt_less in H. unfold total_at, single_at. rewrite H. split; [reflexivity|]. intros. reflexivity.
  - intros Hl Hp Hs. assert (Le : dle S754_nan emin = false) by (destruct emin; reflexivity). split.
    + unfold total_at. rewrite (proj1 (not_nan_lt emin)), (proj1 (not_nan_lt ten)), (proj2 (not_nan_lt emax)). cbn [andb].
      unfold total_inside. rewrite Hl, spline_nan by exact Hs. cbn [obind]. now rewrite Hp.
    + intros c xs ys e2 Hx Hy. unfold single_at. split.
      * rewrite (proj2 (not_nan_lt emax)), Le, Hl. cbn [obind].
        destruct (bicubic_inside c xs ys S754_nan (ddiv (dsub e2 emin) (dsub S754_nan emin)) Hx Hy) as (v & -> & Hv). rewrite (Hv (or_introl eq_refl)). cbn [obind].
        destruct (bicubic_inside c xs ys S754_nan zero Hx Hy) as (w & -> & Hw). rewrite (Hw (or_introl eq_refl)). cbn [obind].
        destruct (dle e2 emin); cbn [obind]; [rewrite (proj1 (not_nan_lt S754_nan))|]; rewrite Hp; reflexivity.
      * intros Hu Hlo. apply dlt_false in Hu. rewrite Hu.
        assert (K : dle e2 emin = false).
        { unfold dle, SFleb. destruct (less_number _ _ Hlo) as [N1 N2]. pose proof (compare_key emin e2 N1 N2) as A. pose proof (compare_key e2 emin N2 N1) as B.
          unfold less in Hlo. rewrite Hlo in A. destruct (SFcompare e2 emin) as [[]|]; trivial; exfalso; [rewrite B in A|]; destruct (key emin) as [[]]; try destruct (key e2) as [[]]; cbn [klt] in *; lia. }
        rewrite K, Le. rewrite (proj2 (sub_nan emin)), (proj2 (div_nan _)).
        destruct (bicubic_inside c xs ys (log10 e2) S754_nan Hx Hy) as (v & -> & Hv). rewrite (Hv (or_intror eq_refl)). cbn [obind]. now rewrite Hp.
Qed.
Print Assumptions c99_tables.
(** The tables of the first version turn it into an index: undefined. *)
Theorem c99_v1_refuted : forall log ten gev emin emax least logs sigma div, log S754_nan = S754_nan ->
  v1_total log ten gev emin emax least logs sigma div S754_nan = UB.
Proof.
  intros log ten gev emin emax least logs sigma div H. unfold v1_total. rewrite (proj1 (not_nan_lt emin)), (proj1 (not_nan_lt ten)), (proj2 (not_nan_lt emax)). cbn [andb].
  autorewrite with nans. rewrite H. autorewrite with nans. reflexivity.
Qed.
Print Assumptions c99_v1_refuted.
