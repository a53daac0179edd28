From Coq Require Import List Arith ZArith Bool Lia.
From Verif Require Import Err MarrayModel MarrayProofs TableModel.
Import ListNotations.

Section T.
Context {V W : Type}.
Variable scan : W -> option V.
Variable fmt : V -> W.

(** All rows are of width [c]. *)
Definition width (c : nat) (rows : list (list V)) : Prop := Forall (fun r => length r = c) rows.

Lemma take_cols_width c rows : width c rows -> take_cols c rows = Ok (concat rows).
Proof.
  induction 1 as [|r rows Hr _ IH]; [reflexivity|]. cbn [take_cols concat]. rewrite Hr, Nat.ltb_irrefl, IH. cbn [obind].
  now rewrite <- Hr, firstn_all.
Qed.

Lemma read_loop_full c lines : forall table, 0 < c -> table <> [] -> Forall (fun l => length (scan_line scan l) = c) lines ->
  read_loop scan lines table (Z.of_nat c) = Ok (table ++ map (scan_line scan) lines, Z.of_nat c).
Proof.
  induction lines as [|l lines IH]; intros table Hc Ht Hf; cbn [read_loop map].
  - now rewrite app_nil_r.
  - inversion Hf as [|? ? Hl Hf']; subst. destruct (scan_line scan l) as [|v r] eqn:E; [cbn in Hc; lia|].
    destruct table as [|t0 table]; [congruence|]. rewrite Z.eqb_refl. cbn [negb].
    rewrite IH; trivial; [|now destruct table]. now rewrite <- app_assoc.
Qed.
(** Lines that yield nothing, before the first row. *)
Lemma read_loop_blank lines : forall rest c, Forall (fun l => scan_line scan l = []) lines ->
  read_loop scan (lines ++ rest) [] c = read_loop scan rest [] (match lines with [] => c | _ => 0%Z end).
Proof.
  induction lines as [|l lines IH]; intros rest c Hf; [reflexivity|]. inversion Hf as [|? ? Hl Hf']; subst.
  cbn [app read_loop]. rewrite Hl. cbn [length]. rewrite IH by assumption. now destruct lines.
Qed.

Lemma quickread_rect lead rows c : 0 < c -> rows <> [] -> Forall (fun l => scan_line scan l = []) lead ->
  Forall (fun l => length (scan_line scan l) = c) rows ->
  quickread scan (lead ++ rows) = Ok (MArr [length rows; c] (concat (map (scan_line scan) rows))).
Proof.
  intros Hc Hr Hl Hf. unfold quickread. rewrite read_loop_blank by assumption.
  destruct rows as [|r rows]; [congruence|]. inversion Hf as [|? ? Hr0 Hf']; subst.
  cbn [read_loop]. destruct (scan_line scan r) as [|v r'] eqn:E; [cbn in Hc; lia|]. rewrite <- E in *.
  cbn [app]. rewrite read_loop_full; trivial; [|discriminate]. cbn [obind app].
  rewrite Nat2Z.id. rewrite take_cols_width.
  - cbn [obind length]. rewrite map_length. reflexivity.
  - constructor; [reflexivity|]. clear - Hf'. induction Hf'; cbn; constructor; auto.
Qed.

(** Two consecutive rows of different widths are refused wherever they are, and so is a row after a line that gave no numbers. *)
Lemma read_loop_ragged lines : forall table c l1 l2 rest, scan_line scan l2 <> [] -> table <> [] \/ (scan_line scan l1 <> []) ->
  length (scan_line scan l1) <> length (scan_line scan l2) ->
  is_ok (read_loop scan (lines ++ l1 :: l2 :: rest) table c) -> False.
Proof.
  induction lines as [|l lines IH]; intros table c l1 l2 rest H2 H1 Hne Hok.
  - cbn [app read_loop] in Hok.
    destruct (scan_line scan l2) as [|w2 r2] eqn:E2; [congruence|].
    destruct (scan_line scan l1) as [|w1 r1] eqn:E1.
    + destruct H1 as [H1|H1]; [|congruence]. destruct table as [|t0 table]; [congruence|].
      cbn in Hok. destruct Hok as [? Hok]. discriminate.
    + match type of Hok with context [if ?b then _ else _] => destruct b; [destruct Hok as [? Hok]; discriminate|] end.
      destruct (table ++ [w1 :: r1]) as [|t0 tt] eqn:Et; [now destruct table|].
      destruct (Z.eqb_spec (Z.of_nat (length (w1 :: r1))) (Z.of_nat (length (w2 :: r2)))) as [e|]; [|destruct Hok as [? Hok]; discriminate].
      apply Nat2Z.inj in e. congruence.
  - cbn [app read_loop] in Hok.
    match type of Hok with context [if ?b then _ else _] => destruct b; [destruct Hok as [? Hok]; discriminate|] end.
    eapply IH; [exact H2| |exact Hne|exact Hok].
    destruct H1 as [H1|H1]; [left|now right]. destruct (scan_line scan l); [exact H1|]. now destruct table.
Qed.
Lemma quickread_ragged lines l1 l2 rest : scan_line scan l1 <> [] -> scan_line scan l2 <> [] ->
  length (scan_line scan l1) <> length (scan_line scan l2) -> quickread scan (lines ++ l1 :: l2 :: rest) = Throw RuntimeError.
Proof.
  intros H1 H2 Hne. unfold quickread.
  pose proof (read_loop_ragged lines [] (2 ^ 64 - 1)%Z l1 l2 rest H2 (or_intror H1) Hne) as H.
  destruct (read_loop scan (lines ++ l1 :: l2 :: rest) [] (2 ^ 64 - 1)%Z) as [x|e|] eqn:E; [destruct H; now exists x|..].
  - clear H. cbn. revert E. generalize (2 ^ 64 - 1)%Z. generalize (@nil (list V)). generalize (lines ++ l1 :: l2 :: rest). clear.
    induction l as [|l ls IH]; intros t c E; cbn [read_loop] in E; [discriminate|].
    match type of E with context [if ?b then _ else _] => destruct b end; [congruence|]. eauto.
  - exfalso. clear H. revert E. generalize (2 ^ 64 - 1)%Z. generalize (@nil (list V)). generalize (lines ++ l1 :: l2 :: rest). clear.
    induction l as [|l ls IH]; intros t c E; cbn [read_loop] in E; [discriminate|].
    match type of E with context [if ?b then _ else _] => destruct b end; [congruence|]. eauto.
Qed.
(** A blank line between two rows is refused. *)
Lemma quickread_blank_between rows c blank l2 rest : 0 < c -> rows <> [] -> Forall (fun l => length (scan_line scan l) = c) rows ->
  scan_line scan blank = [] -> scan_line scan l2 <> [] -> quickread scan (rows ++ blank :: l2 :: rest) = Throw RuntimeError.
Proof.
  intros Hc Hr Hf Hb H2. unfold quickread. destruct rows as [|r rows]; [congruence|]. inversion Hf as [|? ? Hr0 Hf']; subst.
  cbn [app read_loop]. destruct (scan_line scan r) as [|v r'] eqn:E; [cbn in Hc; lia|]. rewrite <- E in *. cbn [app].
  assert (H : forall t k, t <> [] -> k = Z.of_nat (length (scan_line scan r)) ->
     read_loop scan (rows ++ blank :: l2 :: rest) t k = Throw RuntimeError).
  { clear Hf Hr. induction rows as [|x rows IH]; intros t k Ht Hk; cbn [app read_loop].
    - rewrite Hb. cbn [length]. destruct (scan_line scan l2) as [|w2 r2]; [congruence|]. destruct t; [congruence|]. reflexivity.
    - inversion Hf' as [|? ? Hx Hf'']; subst. match goal with |- context [if ?b then _ else _] => destruct b; [reflexivity|] end.
      apply IH; trivial; [destruct (scan_line scan x); [exact Ht|now destruct t]|now rewrite Hx]. }
  rewrite H; [reflexivity|discriminate|reflexivity].
Qed.
(** A blank line at the end loses every column. *)
Lemma quickread_blank_last rows c blank : 0 < c -> rows <> [] -> Forall (fun l => length (scan_line scan l) = c) rows ->
  scan_line scan blank = [] -> quickread scan (rows ++ [blank]) = Ok (MArr [length rows; 0] []).
Proof.
  clear fmt.
  intros Hc Hr Hf Hb. unfold quickread. destruct rows as [|r rows]; [congruence|]. inversion Hf as [|? ? Hr0 Hf']; subst.
  cbn [app read_loop]. destruct (scan_line scan r) as [|v r'] eqn:E; [cbn in Hc; lia|]. rewrite <- E in *. cbn [app].
  assert (H : forall t, t <> [] -> exists t', length t' = length t + length rows /\ t' <> [] /\
     read_loop scan (rows ++ [blank]) t (Z.of_nat (length (scan_line scan r))) = Ok (t', 0%Z)).
  { clear Hf Hr. induction rows as [|x rows IH]; intros t Ht; cbn [app read_loop length].
    - rewrite Hb. exists t. split; [lia|]. split; [exact Ht|]. reflexivity.
    - inversion Hf' as [|? ? Hx Hf'']; subst. rewrite Hx, Z.eqb_refl. cbn [negb].
      destruct (scan_line scan x) as [|w2 r2] eqn:Ex; [rewrite <- Hx in Hc; cbn in Hc; lia|]. destruct t as [|t0 t]; [congruence|].
      destruct (IH Hf'' ((t0 :: t) ++ [w2 :: r2])) as (t' & H1 & H2 & H3); [now destruct t|].
      exists t'. split; [rewrite H1, app_length; cbn; lia|]. split; [exact H2|exact H3]. }
  destruct (H [scan_line scan r] ltac:(discriminate)) as (t' & H1 & H2 & H3). rewrite H3. cbn [obind].
  destruct t' as [|t0 t']; [congruence|]. change (Z.to_nat 0) with 0.
  assert (H0 : take_cols 0 (t0 :: t') = Ok []).
  { generalize (t0 :: t'). induction l as [|y l IH]; [reflexivity|]. cbn. rewrite IH. reflexivity. }
  rewrite H0. cbn [obind length] in *. now rewrite H1.
Qed.

(** Round trip, up to what writing a number as text does to it. *)
Lemma scan_line_fmt rnd l : (forall v, scan (fmt v) = Some (rnd v)) -> scan_line scan (map fmt l) = map rnd l.
Proof. intros H. induction l as [|v l IH]; [reflexivity|]. cbn. now rewrite H, IH. Qed.
Lemma write_rows_spec r c : forall d, length d = r * c -> 
  Forall (fun l => length l = c) (write_rows fmt r c d) /\ concat (write_rows fmt r c d) = map fmt d /\ length (write_rows fmt r c d) = r.
Proof.
  induction r as [|r IH]; intros d Hd; cbn [write_rows].
  - destruct d; [|discriminate]. repeat split; constructor.
  - destruct (IH (skipn c d)) as (H1 & H2 & H3); [rewrite skipn_length; lia|].
    repeat split.
    + constructor; [|exact H1]. rewrite map_length, firstn_length. lia.
    + cbn. rewrite H2, <- map_app, firstn_skipn. reflexivity.
    + cbn. now rewrite H3.
Qed.
Lemma read_write rnd a r c : (forall v, scan (fmt v) = Some (rnd v)) -> wf a -> exts a = [r; c] -> 0 < r -> 0 < c ->
  obind (quickwrite fmt a) (quickread scan) = Ok (MArr [r; c] (map rnd (flat a))).
Proof.
  intros Hs Hwf He Hr Hc. unfold quickwrite. rewrite He. cbn [obind].
  assert (Hl : length (flat a) = r * c) by (unfold wf in Hwf; rewrite Hwf, He; cbn; lia).
  destruct (write_rows_spec r c (flat a) Hl) as (H1 & H2 & H3).
  pose proof (quickread_rect [] (write_rows fmt r c (flat a)) c Hc) as Hq. cbn [app] in Hq. rewrite Hq.
  - rewrite H3. f_equal. f_equal. clear - Hs Hl. revert Hl. generalize (flat a). induction r as [|r IH]; intros d Hl.
    + destruct d; [reflexivity|discriminate].
    + cbn. rewrite scan_line_fmt with (rnd := rnd) by assumption. rewrite IH; [|rewrite skipn_length; lia].
      now rewrite <- map_app, firstn_skipn.
  - intros E. rewrite E in H3. cbn in H3. lia.
  - constructor.
  - clear - Hs Hl. revert Hl. generalize (flat a). induction r as [|r IH]; intros d Hl; cbn; constructor.
    + rewrite scan_line_fmt with (rnd := rnd) by assumption. rewrite map_length, firstn_length. lia.
    + apply IH. rewrite skipn_length. lia.
Qed.
End T.
