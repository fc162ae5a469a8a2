From Coq Require Import Ascii NArith Lia.
From Verif Require Import Base VecModel VecProofs OpProofs StrModel StrSpec StrProofs AsciiModel AsciiSpec AsciiProofs3 AsciiProofs6.
Local Open Scope nat_scope.

Definition pads (ws : list nat) (cells : list str) : list str := map (fun p => pad (fst p) (snd p)) (combine ws cells).
Lemma joined_concat x t d : joined (x :: t) d = x ++ concat (map (fun y => d ++ y) t).
Proof.
  revert x. induction t as [|y t IH]; intro x; [cbn; now rewrite app_nil_r|].
  change (joined (x :: y :: t) d) with (x ++ d ++ joined (y :: t) d). rewrite IH. cbn [map concat]. now rewrite <- !app_assoc.
Qed.

(* --- one line --- *)
Lemma write_cells_tail delim cw cells : forall out j, 0 < j -> j + length cells <= length cw ->
  ofold (write_cell delim cw) cells (out, j) =
  Ok (out ++ concat (map (fun y => delim ++ y) (pads (skipn j cw) cells)), j + length cells).
Proof.
  induction cells as [|s cells IH]; intros out j P L; cbn [ofold length].
  - unfold pads. rewrite combine_nil, Nat.add_0_r. cbn. now rewrite app_nil_r.
  - cbn [length] in L. unfold write_cell at 1. unfold width_at.
    destruct (nth_error cw j) as [w|] eqn:E; [|apply nth_error_None in E; lia]. cbn [obind].
    destruct (Nat.eqb_spec j 0); [lia|]. rewrite IH by lia. rewrite align_pad.
    rewrite (skipn_cons_nth _ cw j w E). unfold pads. cbn [combine map concat fst snd].
    rewrite <- !app_assoc. f_equal. f_equal. lia.
Qed.
Lemma write_row_ok delim cw cells out : length cells <= length cw ->
  write_row delim cw out cells = Ok (out ++ line delim cw cells ++ [nl]).
Proof.
  intro L. unfold write_row, line. fold (pads cw cells). destruct cells as [|s cells].
  - cbn [ofold obind]. unfold pads. rewrite combine_nil. cbn. reflexivity.
  - cbn [ofold]. destruct cw as [|w cw]; [cbn in L; lia|]. unfold write_cell at 1. cbn [width_at nth_error obind Nat.eqb].
    rewrite write_cells_tail by (cbn in *; lia). cbn [obind skipn]. rewrite align_pad.
    unfold pads at 2. cbn [combine map fst snd]. fold (pads cw cells). rewrite joined_concat. now rewrite <- !app_assoc.
Qed.

Lemma file_of_app a b : file_of (a ++ b) = file_of a ++ file_of b.
Proof. unfold file_of. now rewrite map_app, concat_app. Qed.

Lemma write_rows_ok delim cw (f : nat -> outcome (list str)) rows : forall i out,
  (forall k row, nth_error rows k = Some row -> f (i + k) = Ok row /\ length row <= length cw) ->
  ofold (fun out i => cells <- f i ;; write_row delim cw out cells) (seq i (length rows)) out =
  Ok (out ++ file_of (map (line delim cw) rows)).
Proof.
  induction rows as [|row rows IH]; intros i out H; cbn [length seq ofold].
  - cbn. now rewrite app_nil_r.
  - destruct (H 0 row eq_refl) as [E L]. rewrite Nat.add_0_r in E. rewrite E. cbn [obind].
    rewrite write_row_ok by exact L. cbn [obind]. rewrite IH.
    + cbn [map]. change (line delim cw row :: ?t) with ([line delim cw row] ++ t). rewrite file_of_app.
      unfold file_of at 2. cbn [map concat]. rewrite app_nil_r. now rewrite <- !app_assoc.
    + intros k r E2. replace (S i + k) with (i + S k) by lia. now apply H.
Qed.

(* --- the header --- *)
Lemma header_tail o h cw : forall n i out, 0 < i -> i + n = length h -> length h <= length cw ->
  ofold (fun out i =>
          hw <- width_at cw i ;;
          let hw := if (i =? 0) && (length (header_chars o) <=? hw) then hw - length (header_chars o) else hw in
          x <- oget h i ;;
          Ok ((if i =? 0 then out else out ++ out_delim o) ++ align_right x hw " "%char))
        (seq i n) out = Ok (out ++ concat (map (fun y => out_delim o ++ y) (pads (skipn i cw) (skipn i h)))).
Proof.
  induction n as [|n IH]; intros i out P L Lh; cbn [seq ofold].
  - rewrite (skipn_all2 h) by lia. unfold pads. rewrite combine_nil. cbn. now rewrite app_nil_r.
  - unfold width_at at 1. destruct (nth_error cw i) as [w|] eqn:E; [|apply nth_error_None in E; lia]. cbn [obind].
    destruct (Nat.eqb_spec i 0) as [X|_]; [lia|]. cbn [andb].
    destruct (oget_ex _ h i) as (x & Ex & Nx); [lia|]. rewrite Ex. cbn [obind].
    rewrite IH by lia. rewrite align_pad, (skipn_cons_nth _ cw i w E), (skipn_cons_nth _ h i x Nx).
    unfold pads. cbn [combine map concat fst snd]. now rewrite <- !app_assoc.
Qed.
Lemma write_header_ok o cw out : length (header o) <= length cw ->
  write_header o cw out = Ok (out ++ file_of (header_lines o cw)).
Proof.
  intro L. unfold write_header, header_lines. destruct (header o) as [|h0 h] eqn:Eh.
  - cbn. now rewrite app_nil_r.
  - destruct cw as [|w cw]; [cbn in L; lia|]. cbn [length seq ofold].
    cbn [width_at nth_error obind Nat.eqb andb]. cbn [oget nth_error obind].
    rewrite header_tail by (cbn in *; lia). cbn [obind]. rewrite align_pad. f_equal.
    unfold file_of, line. cbn [map concat combine fst snd skipn]. rewrite joined_concat, app_nil_r.
    fold (pads cw h). now rewrite <- !app_assoc.
Qed.

(* --- cached data --- *)
Lemma cache_cells_ok mw c cells : forall pre n j, j + length cells <= c ->
  ofold (cache_cell (repeat mw c)) cells (pre ++ repeat [] (length cells + n), length pre, j) =
  Ok (pre ++ map (pad mw) cells ++ repeat [] n, length pre + length cells, j + length cells).
Proof.
  induction cells as [|s cells IH]; intros pre n j L; cbn [ofold length].
  - cbn. now rewrite !Nat.add_0_r.
  - cbn [length] in L. unfold cache_cell at 1. unfold width_at.
    rewrite (nth_error_repeat mw) by lia. cbn [obind Nat.add repeat].
    unfold oset. rewrite app_length. cbn [length]. rewrite (proj2 (Nat.ltb_lt _ _)) by lia. cbn [obind].
    rewrite upd_fill_app, align_pad.
    specialize (IH (pre ++ [pad mw s]) n (S j)). rewrite app_length in IH. cbn [length] in IH.
    replace (S (length pre)) with (length pre + 1) by lia.
    rewrite <- app_assoc in IH. cbn [app] in IH. rewrite IH by lia. rewrite <- !app_assoc. cbn [map app].
    f_equal. f_equal; [f_equal|]; lia.
Qed.
Lemma cache_rows_ok mw cols c rows : forall i pre n,
  (forall k row, nth_error rows k = Some row -> row_cells cols (i + k) = Ok row /\ length row = c) ->
  ofold (cache_row (repeat mw c) cols) (seq i (length rows)) (pre ++ repeat [] (length rows * c + n), length pre) =
  Ok (pre ++ concat (map (map (pad mw)) rows) ++ repeat [] n, length pre + length rows * c).
Proof.
  induction rows as [|row rows IH]; intros i pre n H; cbn [length seq ofold].
  - cbn. now rewrite Nat.add_0_r.
  - destruct (H 0 row eq_refl) as [E L]. rewrite Nat.add_0_r in E. unfold cache_row at 1. rewrite E. cbn [obind].
    replace (S (length rows) * c + n) with (length row + (length rows * c + n)) by (cbn [Nat.mul]; lia).
    rewrite cache_cells_ok by lia. cbn [obind].
    specialize (IH (S i) (pre ++ map (pad mw) row) n). rewrite app_length, map_length in IH.
    rewrite <- app_assoc in IH. rewrite IH.
    + cbn [map concat]. rewrite <- !app_assoc. f_equal. f_equal. cbn [Nat.mul]. lia.
    + intros k r E2. replace (S i + k) with (i + S k) by lia. now apply H.
Qed.

(* --- widths --- *)
Section Widths.
Variables (mw c : nat) (rows : list (list str)).
Hypothesis Hc : Forall (fun row => length row = c) rows.
Let data := concat (map (map (pad mw)) rows).

Lemma data_at i j row x : nth_error rows i = Some row -> nth_error row j = Some x ->
  nth_error data (i * c + j) = Some (pad mw x).
Proof.
  intros E1 E2.
  assert (Lr : length row = c) by (rewrite Forall_forall in Hc; apply Hc; now apply nth_error_In in E1).
  assert (Lj : j < c) by (rewrite <- Lr; apply nth_error_Some; congruence).
  unfold data. rewrite (concat_nth _ (map (map (pad mw)) rows) c) with (l := map (pad mw) row).
  - now rewrite nth_error_map, E2.
  - apply Forall_forall. intros l I. apply in_map_iff in I. destruct I as (r0 & <- & I). rewrite map_length.
    rewrite Forall_forall in Hc. now apply Hc.
  - now rewrite nth_error_map, E1.
  - exact Lj.
Qed.

Lemma data_width_ok j : j < c -> forall n i w, i + n <= length rows -> mw <= w ->
  exists w', ofold (fun w i => s <- oget data (i * c + j) ;; Ok (Nat.max w (length s))) (seq i n) w = Ok w' /\
   forall b, w' <= b <-> w <= b /\ forall k row x, i <= k < i + n -> nth_error rows k = Some row ->
     nth_error row j = Some x -> length x <= b.
Proof.
  intro Lj. induction n as [|n IH]; intros i w L M; cbn [seq ofold].
  - exists w. split; [reflexivity|]. intro b. split; [|tauto]. intro H. split; [exact H|]. intros; lia.
  - destruct (nth_error rows i) as [row|] eqn:E1; [|apply nth_error_None in E1; lia].
    assert (Lr : length row = c) by (rewrite Forall_forall in Hc; apply Hc; now apply nth_error_In in E1).
    destruct (nth_error row j) as [x|] eqn:E2; [|apply nth_error_None in E2; lia].
    unfold oget at 1. rewrite (data_at i j row x E1 E2). cbn [obind].
    destruct (IH (S i) (Nat.max w (length (pad mw x)))) as (w' & -> & H); [lia|lia|].
    exists w'. split; [reflexivity|]. intro b. rewrite H, pad_length. split.
    + intros [H1 H2]. split; [lia|]. intros k row' x' Lk Ek Ex. destruct (Nat.eq_dec k i) as [->|N].
      * assert (row' = row) by congruence. subst row'. assert (x' = x) by congruence. subst. lia.
      * apply (H2 k row' x'); auto. lia.
    + intros [H1 H2]. split.
      * pose proof (H2 i row x). assert (length x <= b) by (apply H0; auto; lia). lia.
      * intros k row' x' Lk. apply H2. lia.
Qed.
End Widths.

Lemma auto_width_ok o rows c j : auto_width o = true -> Forall (fun row => length row = c) rows -> j < c ->
  (header o = [] \/ length (header o) = c) ->
  exists w, (w <- oget (repeat (min_width o) c) j ;;
     w <- data_width (concat (map (map (pad (min_width o))) rows)) (length rows) c w j ;; header_width o w j) = Ok w /\
   forall b, w <= b <-> (min_width o <= b /\ (forall row x, In row rows -> nth_error row j = Some x -> length x <= b) /\
       (forall h, nth_error (header o) j = Some h -> head_size o j h <= b)).
Proof.
  intros A Hc Lj Hh. unfold oget at 1. rewrite nth_error_repeat by lia. cbn [obind].
  destruct (data_width_ok (min_width o) c rows Hc j Lj (length rows) 0 (min_width o)) as (w & E & H); [lia|lia|].
  unfold data_width. rewrite E. cbn [obind]. clear E.
  assert (H' : forall b, w <= b <-> min_width o <= b /\ forall row x, In row rows -> nth_error row j = Some x -> length x <= b).
  { intro b. rewrite H. split; intros [H1 H2]; (split; [exact H1|]).
    - intros row x I E. apply In_nth_error in I. destruct I as (k & Ek). apply (H2 k row x); auto.
      split; [lia|]. apply nth_error_Some. congruence.
    - intros k row x _ Ek E. apply (H2 row x); auto. now apply nth_error_In in Ek. }
  unfold header_width. destruct (header o) as [|h0 h] eqn:Eh.
  - exists w. split; [reflexivity|]. intro b. rewrite H'. split; [|tauto]. intros [H1 H2]. split; [exact H1|]. split; [exact H2|].
    intros x X. destruct j; discriminate X.
  - destruct Hh as [Hh|Hh]; [discriminate Hh|]. destruct (oget_ex _ (h0 :: h) j) as (x & E & N); [lia|].
    rewrite E. cbn [obind]. eexists. split; [reflexivity|]. fold (head_size o j x). intro b.
    rewrite Nat.max_lub_iff, H', N. split.
    + intros [[H1 H2] H3]. split; [exact H1|]. split; [exact H2|]. intros y Y. injection Y as <-. exact H3.
    + intros [H1 [H2 H3]]. split; [tauto|]. now apply H3.
Qed.

Lemma write_table_ok o r cols : Forall (has_rows r) cols -> 0 < col_total cols ->
  (header o = [] \/ length (header o) = col_total cols) ->
  exists rows ws, table_of cols r rows /\ Forall (fun row => length row = col_total cols) rows /\
    widths o rows (col_total cols) ws /\
    write_table o cols = Ok (file_of (header_lines o ws ++ map (line (out_delim o) ws) rows)).
Proof.
  intros H P Hh. destruct (rows_ok r cols H) as (rows & T & Fc & Rc). set (c := col_total cols) in *.
  assert (Lr : length rows = r) by apply T.
  destruct (check_size_ok r cols H 0 0 (or_introl eq_refl)) as (r1 & E & _ & N). fold c in E.
  assert (r1 = r) as -> by (destruct (Nat.eq_dec r1 r) as [|X]; [assumption|]; apply N in X; unfold c in P; lia).
  unfold write_table. rewrite E. cbn [obind Nat.add].
  assert (C : check (match header o with [] => true | h => length h =? c end) = Ok tt).
  { destruct (header o); [reflexivity|]. destruct Hh as [Hh|Hh]; [discriminate Hh|]. rewrite Hh, Nat.eqb_refl. reflexivity. }
  rewrite C. cbn [obind]. clear C. destruct (auto_width o) eqn:A.
  - pose proof (cache_rows_ok (min_width o) cols c rows 0 [] 0) as Cr. cbn [app length Nat.add] in Cr.
    rewrite Nat.add_0_r, Lr in Cr. rewrite Cr.
    2:{ intros k row Ek. split; [now apply Rc|]. rewrite Forall_forall in Fc. apply Fc. now apply nth_error_In in Ek. }
    cbn [obind]. clear Cr. cbn [repeat]. rewrite app_nil_r. set (data := concat (map (map (pad (min_width o))) rows)).
    destruct (omapl_ex _ _ (fun j => w <- oget (repeat (min_width o) c) j ;;
       w <- data_width data r c w j ;; header_width o w j) (seq 0 c)) as (ws & Ew & Fw).
    { intros j I. apply in_seq in I. destruct (auto_width_ok o rows c j A Fc) as (w & Ew & _); [lia|exact Hh|]. rewrite Lr in Ew. eauto. }
    rewrite Ew. cbn [obind]. pose proof (Forall2_len _ _ _ _ _ Fw) as Lw. rewrite seq_length in Lw.
    assert (W : widths o rows c ws).
    { split; [now symmetry|]. intros j w Ej. rewrite A.
      assert (Lj : j < c) by (rewrite Lw; apply nth_error_Some; congruence).
      destruct (Forall2_nth _ _ _ _ _ Fw j j (seq_nth_ok c j Lj)) as (w' & E1 & E2). rewrite Ej in E1. injection E1 as <-.
      destruct (auto_width_ok o rows c j A Fc Lj Hh) as (w' & E3 & Hw). rewrite Lr in E3. fold data in E3.
      rewrite E3 in E2. injection E2 as <-. exact Hw. }
    exists rows, ws. split; [exact T|]. split; [exact Fc|]. split; [exact W|].
    rewrite write_header_ok by (destruct Hh as [-> | ->]; cbn; lia). cbn [obind app]. rewrite file_of_app.
    set (out := file_of (header_lines o ws)).
    assert (Gr : forall k row, nth_error rows k = Some row ->
      omapl (fun j => oget data (k * c + j)) (seq 0 c) = Ok (map (pad (min_width o)) row)).
    { intros k row Ek. assert (Lrow : length row = c) by (rewrite Forall_forall in Fc; apply Fc; now apply nth_error_In in Ek).
      destruct (omapl_ex _ _ (fun j => oget data (k * c + j)) (seq 0 c)) as (ys & Ey & Fy).
      { intros j I. apply in_seq in I. destruct (nth_error row j) as [x|] eqn:Ex; [|apply nth_error_None in Ex; lia].
        exists (pad (min_width o) x). apply oget_Ok. now apply (data_at (min_width o) c rows Fc k j row x). }
      rewrite Ey. f_equal. apply list_eq_nth_error. intro j. rewrite nth_error_map.
      pose proof (Forall2_len _ _ _ _ _ Fy) as Ly. rewrite seq_length in Ly.
      destruct (nth_error row j) as [x|] eqn:Ex; cbn [option_map].
      - assert (Lj : j < c) by (rewrite <- Lrow; apply nth_error_Some; congruence).
        destruct (Forall2_nth _ _ _ _ _ Fy j j (seq_nth_ok c j Lj)) as (y & E1 & E2).
        apply oget_Ok in E2. unfold data in E2. rewrite (data_at (min_width o) c rows Fc k j row x Ek Ex) in E2. congruence.
      - apply nth_error_None in Ex. apply nth_error_None. lia. }
    pose proof (write_rows_ok (out_delim o) ws (fun i => omapl (fun j => oget data (i * c + j)) (seq 0 c))
      (map (map (pad (min_width o))) rows) 0 out) as Wr. rewrite map_length, Lr in Wr. rewrite Wr.
    2:{ intros k row Ek. rewrite nth_error_map in Ek. destruct (nth_error rows k) as [row0|] eqn:E0; [|discriminate Ek].
        injection Ek as <-. cbn [Nat.add]. split; [now apply Gr|]. rewrite map_length. rewrite Forall_forall in Fc.
        rewrite (Fc row0) by now apply nth_error_In in E0. lia. }
    f_equal. f_equal. f_equal. rewrite map_map. apply map_ext_in. intros row Ir. unfold line. f_equal.
    (* padding twice *)
    assert (Mw : Forall (fun w => min_width o <= w) ws).
    { apply Forall_forall. intros w Iw. apply In_nth_error in Iw. destruct Iw as (j & Ej). destruct W as [_ W].
      specialize (W j w Ej). rewrite A in W. apply (proj1 (W w)). lia. }
    clear - Mw. revert row. induction Mw as [|w ws Hw Mw IH]; intros [|x row]; try reflexivity. cbn [map combine fst snd].
    now rewrite IH, pad_pad.
  - exists rows, (repeat (min_width o) c). split; [exact T|]. split; [exact Fc|]. split.
    { split; [apply repeat_length|]. intros j w Ej. rewrite A. apply nth_error_In, repeat_spec in Ej. exact Ej. }
    rewrite write_header_ok by (rewrite repeat_length; destruct Hh as [-> | ->]; cbn; lia). cbn [obind app]. rewrite file_of_app.
    pose proof (write_rows_ok (out_delim o) (repeat (min_width o) c) (row_cells cols) rows 0
      (file_of (header_lines o (repeat (min_width o) c)))) as Wr. rewrite Lr in Wr. apply Wr.
    intros k row Ek. split; [now apply Rc|]. rewrite repeat_length. rewrite Forall_forall in Fc.
    rewrite (Fc row) by now apply nth_error_In in Ek. lia.
Qed.
