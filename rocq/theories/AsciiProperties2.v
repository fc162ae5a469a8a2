(* C71: writing ASCII tables and reading them back (io/ascii.hpp). *)
From Coq Require Import Ascii String NArith Lia.
From Verif Require Import Base VecModel VecProofs StrModel StrSpec StrProofs StrProofs2 StrProofs3
  AsciiModel AsciiSpec AsciiProofs AsciiProofs2 AsciiProofs3 AsciiProofs4 AsciiProofs5 AsciiProofs6 AsciiProofs7 AsciiProofs8.
Local Open Scope nat_scope.
Local Notation "s '%s'" := (list_ascii_of_string s) (at level 1).

(* The file is the header, then one line per row: the cells, padded on the left to the width of their column and
   separated by the delimiter. *)
Theorem C71_write_table : forall o r cols,
  Forall (has_rows r) cols -> 0 < col_total cols -> (header o = [] \/ List.length (header o) = col_total cols) ->
  exists rows ws, table_of cols r rows /\ Forall (fun row => List.length row = col_total cols) rows /\
    widths o rows (col_total cols) ws /\
    write_table o cols = Ok (file_of (header_lines o ws ++ map (line (out_delim o) ws) rows)).
Proof. exact write_table_ok. Qed.
Print Assumptions C71_write_table.

(* With auto_width all the lines, header included, have the same length. *)
Theorem C71_aligned : forall o r cols, auto_width o = true ->
  Forall (has_rows r) cols -> 0 < col_total cols -> (header o = [] \/ List.length (header o) = col_total cols) ->
  exists lines n, write_table o cols = Ok (file_of lines) /\ Forall (fun l => List.length l = n) lines /\
    List.length lines = r + (if header o then 0 else 1).
Proof.
  intros o r cols A H P Hh. destruct (write_table_ok o r cols H P Hh) as (rows & ws & T & Fc & W & E).
  eexists; exists (list_sum ws + (col_total cols - 1) * List.length (out_delim o)). split; [exact E|]. split.
  - now apply aligned.
  - destruct T as [L _]. rewrite app_length, map_length, L. unfold header_lines. destruct (header o); cbn; lia.
Qed.
Print Assumptions C71_aligned.

(* What is written with blanks as separators is read back by the standard format. *)
Theorem C71_roundtrip : forall V (dflt : V) o r cols args,
  Forall (has_rows r) cols -> 0 < col_total cols -> (header o = [] \/ List.length (header o) = col_total cols) ->
  out_delim o <> [] -> made_of blank_chars (out_delim o) ->
  (header o = [] \/ exists t, header_chars o = "#"%char :: t) ->
  free_of [nl; cr] (header_chars o) -> Forall (free_of [nl; cr]) (header o) ->
  (N.of_nat r < 2 ^ 64)%N -> fits_rows args r ->
  (forall rows, table_of cols r rows -> Forall (fun row =>
     Forall (fun x => x <> [] /\ free_of [" "; "009"; "010"; "013"]%char x) row /\
     (exists x t, row = x :: t /\ starts_visible x) /\ row_ok args row) rows) ->
  exists content rows sto, write_table o cols = Ok content /\ table_of cols r rows /\
    read_table V dflt standard_in content args = Ok sto /\ sized args r sto /\
    forall i row, nth_error rows i = Some row -> row_stored args sto i row.
Proof.
  intros V dflt o r cols args Hr Pc Hh Nd Md Hc F1 F3 Lr Fi Rows.
  apply (written V dflt standard_in o r cols args); auto.
  - now split.
  - discriminate.
  - intros c I [<-|[<-|[]]]; apply Md in I; destruct I as [X|[X|[]]]; discriminate X.
  - intros rows T. specialize (Rows rows T). eapply Forall_impl; [|exact Rows]. cbn. intros row (P1 & P2 & P3).
    split; [|now split]. eapply Forall_impl; [|exact P1]. cbn. intros x [_ Fx] c I [<-|[<-|[]]]; apply (Fx _ I); cbn; tauto.
  - intros rows ws row T W I L. specialize (Rows rows T). rewrite Forall_forall in Rows. destruct (Rows row I) as (P1 & _ & _).
    unfold fields_of. cbn [standard_in delim_single in_delim]. apply words_line; auto; [now left|].
    eapply Forall_impl; [|exact P1]. cbn. intros x [Nx Fx]. split; [exact Nx|]. intros c Ic [<-|[<-|[]]]; apply (Fx _ Ic); cbn; tauto.
Qed.
Print Assumptions C71_roundtrip.

(* In particular string vectors come back unchanged. *)
Theorem C71_roundtrip_vectors : forall h r vs, vs <> [] -> Forall (fun v => List.length v = r) vs ->
  (h = [] \/ List.length h = List.length vs) -> Forall (free_of [nl; cr]) h -> (N.of_nat r <= max_elems)%N ->
  Forall (Forall (fun x => x <> [] /\ free_of [" "; "009"; "010"; "013"]%char x)) vs ->
  (forall v, nth_error vs 0 = Some v -> Forall starts_visible v) ->
  exists content, write_table (standard_out h) (map W1 vs) = Ok content /\
    read_table str [] standard_in content (repeat text (List.length vs)) = Ok (map (fun v => [v]) vs).
Proof.
  intros h r vs Nv Hv Hh Fh Lr Cells First.
  pose proof (col_total_vectors vs) as Ct.
  destruct (C71_roundtrip str [] (standard_out h) r (map W1 vs) (repeat text (List.length vs)))
    as (content & rows & sto & E1 & T & E2 & Sz & St).
  - apply Forall_map. exact Hv.
  - rewrite Ct. destruct vs; [easy|]. cbn. lia.
  - rewrite Ct. exact Hh.
  - discriminate.
  - intros c [<-|[]]. now left.
  - right. now eexists.
  - intros c [<-|[<-|[]]] [X|[X|[]]]; discriminate X.
  - exact Fh.
  - unfold max_elems in Lr. lia.
  - apply Forall_forall. intros g I. apply repeat_spec in I. subst g. exact Lr.
  - intros rows T. apply Forall_forall. intros row I. apply In_nth_error in I. destruct I as (i & Ei).
    destruct (table_vectors vs r rows Hv T i row Ei) as [Lrow G]. split; [|split].
    + apply Forall_forall. intros x Ix. apply In_nth_error in Ix. destruct Ix as (j & Ej).
      destruct (nth_error vs j) as [v|] eqn:Ev.
      * destruct (G j v Ev) as [E _]. rewrite Ej in E. rewrite Forall_forall in Cells.
        specialize (Cells v (nth_error_In _ _ Ev)). rewrite Forall_forall in Cells. apply Cells. symmetry in E. now apply nth_error_In in E.
      * apply nth_error_None in Ev. assert (j < List.length row) by (apply nth_error_Some; congruence). lia.
    + destruct vs as [|v vs']; [easy|]. destruct (G 0 v eq_refl) as [E Li]. destruct row as [|x t]; [discriminate Lrow|].
      exists x, t. split; [reflexivity|]. specialize (First v eq_refl). rewrite Forall_forall in First. apply First.
      cbn [nth_error] in E. symmetry in E. now apply nth_error_In in E.
    + apply row_ok_text. lia.
  - exists content. split; [exact E1|]. rewrite E2. f_equal. now apply (text_stored vs r rows).
Qed.
Print Assumptions C71_roundtrip_vectors.

(* The same for CSV files; fields can be empty or contain blanks, except for the first one. *)
Theorem C71_csv_roundtrip : forall V (dflt : V) h r cols args,
  Forall (has_rows r) cols -> 0 < col_total cols -> (h = [] \/ List.length h = col_total cols) ->
  Forall (free_of [nl; cr]) h -> (N.of_nat r < 2 ^ 64)%N -> fits_rows args r ->
  (forall rows, table_of cols r rows -> Forall (fun row =>
     Forall (free_of [","; "010"; "013"]%char) row /\
     (exists x t, row = x :: t /\ starts_visible x) /\ row_ok args row) rows) ->
  exists content rows sto, write_table (csv_out h) cols = Ok content /\ table_of cols r rows /\
    read_table V dflt csv_in content args = Ok sto /\ sized args r sto /\
    forall i row, nth_error rows i = Some row -> row_stored args sto i row.
Proof.
  intros V dflt h r cols args Hr Pc Hh F3 Lr Fi Rows.
  apply (written V dflt csv_in (csv_out h) r cols args); auto.
  - now split.
  - discriminate.
  - right. now eexists.
  - intros c [<-|[<-|[]]] [X|[X|[]]]; discriminate X.
  - intros c [<-|[]] [X|[X|[]]]; discriminate X.
  - intros rows T. specialize (Rows rows T). eapply Forall_impl; [|exact Rows]. cbn. intros row (P1 & P2 & P3).
    split; [|now split]. eapply Forall_impl; [|exact P1]. cbn. intros x Fx c I [<-|[<-|[]]]; apply (Fx _ I); cbn; tauto.
  - intros rows ws row T [Lw W] I L. specialize (Rows rows T). rewrite Forall_forall in Rows. destruct (Rows row I) as (P1 & P2 & _).
    assert (ws = repeat 0 (List.length ws)) as ->.
    { apply list_eq_nth_error. intro j. destruct (nth_error ws j) as [w|] eqn:Ej.
      - rewrite (W j w Ej). symmetry. apply nth_error_repeat. apply nth_error_Some. congruence.
      - symmetry. apply nth_error_None. rewrite repeat_length. now apply nth_error_None. }
    rewrite line_plain by (rewrite L; reflexivity). destruct P2 as (x & t & -> & c & x' & -> & _ & _).
    unfold fields_of. cbn [csv_in delim_single in_delim csv_out out_delim]. split; [|now exists c, x', t].
    apply cut_char; [discriminate|]. eapply Forall_impl; [|exact P1]. cbn. intros y Fy c' Ic [<-|[]]. apply (Fy _ Ic). cbn. tauto.
Qed.
Print Assumptions C71_csv_roundtrip.

Theorem C71_csv_roundtrip_vectors : forall h r vs, vs <> [] -> Forall (fun v => List.length v = r) vs ->
  (h = [] \/ List.length h = List.length vs) -> Forall (free_of [nl; cr]) h -> (N.of_nat r <= max_elems)%N ->
  Forall (Forall (free_of [","; "010"; "013"]%char)) vs ->
  (forall v, nth_error vs 0 = Some v -> Forall starts_visible v) ->
  exists content, write_table (csv_out h) (map W1 vs) = Ok content /\
    read_table str [] csv_in content (repeat text (List.length vs)) = Ok (map (fun v => [v]) vs).
Proof.
  intros h r vs Nv Hv Hh Fh Lr Cells First.
  pose proof (col_total_vectors vs) as Ct.
  destruct (C71_csv_roundtrip str [] h r (map W1 vs) (repeat text (List.length vs)))
    as (content & rows & sto & E1 & T & E2 & Sz & St); auto.
  - apply Forall_map. exact Hv.
  - rewrite Ct. destruct vs; [easy|]. cbn. lia.
  - rewrite Ct. exact Hh.
  - unfold max_elems in Lr. lia.
  - apply Forall_forall. intros g I. apply repeat_spec in I. subst g. exact Lr.
  - intros rows T. apply Forall_forall. intros row I. apply In_nth_error in I. destruct I as (i & Ei).
    destruct (table_vectors vs r rows Hv T i row Ei) as [Lrow G]. split; [|split].
    + apply Forall_forall. intros x Ix. apply In_nth_error in Ix. destruct Ix as (j & Ej).
      destruct (nth_error vs j) as [v|] eqn:Ev.
      * destruct (G j v Ev) as [E _]. rewrite Ej in E. rewrite Forall_forall in Cells.
        specialize (Cells v (nth_error_In _ _ Ev)). rewrite Forall_forall in Cells. apply Cells. symmetry in E. now apply nth_error_In in E.
      * apply nth_error_None in Ev. assert (j < List.length row) by (apply nth_error_Some; congruence). lia.
    + destruct vs as [|v vs']; [easy|]. destruct (G 0 v eq_refl) as [E Li]. destruct row as [|x t]; [discriminate Lrow|].
      exists x, t. split; [reflexivity|]. specialize (First v eq_refl). rewrite Forall_forall in First. apply First.
      cbn [nth_error] in E. symmetry in E. now apply nth_error_In in E.
    + apply row_ok_text. lia.
  - exists content. split; [exact E1|]. rewrite E2. f_equal. now apply (text_stored vs r rows).
Qed.
Print Assumptions C71_csv_roundtrip_vectors.

(* The header must have one name per column. *)
Theorem C71_header_mismatch_aborts : forall o r cols, Forall (has_rows r) cols -> header o <> [] ->
  List.length (header o) <> col_total cols -> write_table o cols = CheckFail.
Proof.
  intros o r cols H N L. destruct (check_size_ok r cols H 0 0 (or_introl eq_refl)) as (r1 & E & _ & _).
  unfold write_table. rewrite E. cbn [obind Nat.add]. destruct (header o) as [|h0 h]; [easy|].
  rewrite (proj2 (Nat.eqb_neq _ _) L). reflexivity.
Qed.
Print Assumptions C71_header_mismatch_aborts.

(* Finding: the error for columns of different lengths is thrown outside of the try block, so that the exception
   leaves write_table. *)
Theorem C71_size_mismatch_uncaught : forall o r l cols rest, Forall (has_rows r) cols -> 0 < r -> 0 < col_total cols ->
  List.length l <> r -> write_table o (cols ++ W1 l :: rest) = Throws.
Proof.
  intros o r l cols rest H Pr Pc N. destruct (check_size_ok r cols H 0 0 (or_introl eq_refl)) as (r1 & E & _ & X).
  assert (r1 = r) as -> by (destruct (Nat.eq_dec r1 r) as [|Y]; [assumption|]; apply X in Y; lia).
  unfold write_table. rewrite ofold_app, E. cbn [obind ofold check_size]. unfold size_of at 1.
  rewrite (proj2 (Nat.eqb_neq r 0)) by lia. rewrite (proj2 (Nat.eqb_neq _ _) N). reflexivity.
Qed.
Print Assumptions C71_size_mismatch_uncaught.

(* Finding: an empty first column takes the size of the second one without error, and is then read out of bounds. *)
Theorem C71_empty_column_UB : forall o x l, header o = [] -> write_table o [W1 []; W1 (x :: l)] = UB.
Proof.
  intros o x l Hh. unfold write_table. cbn [ofold check_size size_of Nat.eqb List.length obind Nat.add].
  rewrite Nat.eqb_refl. cbn [obind]. rewrite Hh. cbn [check obind]. destruct (auto_width o).
  - cbn [seq ofold]. unfold cache_row at 1. reflexivity.
  - unfold write_header. rewrite Hh. cbn [obind]. reflexivity.
Qed.
Print Assumptions C71_empty_column_UB.

(* Finding: columns(m, v) does not check m against the number of columns of v: too large an m reads out of bounds. *)
Theorem C71_columns_too_many_UB : forall o x, header o = [] -> write_table o [WG 2 [(1, 1, [x])]] = UB.
Proof.
  intros o x Hh. unfold write_table. cbn. rewrite Hh. cbn. destruct (auto_width o); [reflexivity|].
  unfold write_header. rewrite Hh. reflexivity.
Qed.
Print Assumptions C71_columns_too_many_UB.
(* Finding: the same with too small an m; the cells are written in the wrong rows. *)
Theorem C71_columns_too_few_refuted : exists m r c l, m < c /\ List.length l = r * c /\
  write_table (standard_out []) [WG m [(r, c, l)]] = Ok ("1 3" %s ++ [nl] ++ "   " %s ++ [nl]) /\
  l = ["1" %s; "2" %s; "3" %s; "4" %s].
Proof. exists 1, 2, 2, ["1" %s; "2" %s; "3" %s; "4" %s]. split; [lia|]. split; [reflexivity|]. split; [reflexivity|reflexivity]. Qed.
Print Assumptions C71_columns_too_few_refuted.

Example C71_write_ex :
  write_table (standard_out ["id" %s; "flux" %s; "b" %s])
    [W1 ["1" %s; "20" %s]; WG 1 [(2, 1, ["0.5" %s; "-3" %s]); (2, 1, ["7" %s; "123" %s])]] =
  Ok ("# id flux   b" %s ++ [nl] ++ "   1  0.5   7" %s ++ [nl] ++ "  20   -3 123" %s ++ [nl]).
Proof. reflexivity. Qed.
Example C71_csv_ex :
  (c <- write_table (csv_out []) [W1 ["a b" %s; "c" %s]; W1 ["" %s; "d" %s]] ;; read_table str [] csv_in c [text; text]) =
  Ok [[["a b" %s; "c" %s]]; [["" %s; "d" %s]]].
Proof. reflexivity. Qed.
