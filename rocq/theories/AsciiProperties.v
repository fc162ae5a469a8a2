(* C70: reading ASCII tables (io/ascii.hpp). *)
From Coq Require Import Ascii String NArith Lia.
From Verif Require Import Base VecModel VecProofs StrModel StrSpec StrProofs StrProofs2 StrProofs3
  AsciiModel AsciiSpec AsciiProofs AsciiProofs2 AsciiProofs3 AsciiProofs4 AsciiProofs5.
Local Open Scope nat_scope.
Local Notation "s '%s'" := (list_ascii_of_string s) (at level 1).

(* Every file has exactly one list of used lines. *)
Theorem C70_used_lines : forall o content, pattern_ok o ->
  exists us, used_lines o content us /\ forall us', used_lines o content us' -> us' = us.
Proof.
  intros o content P. exists (used_of o content). split; [now apply used_lines_iff|].
  intros us' H. now apply used_lines_iff in H.
Qed.
Print Assumptions C70_used_lines.

(* A line has at most one list of fields; without delim_single it always has one. *)
Theorem C70_fields_unique : forall o l fs fs', fields_of o l fs -> fields_of o l fs' -> fs = fs'.
Proof. exact fields_fun. Qed.
Print Assumptions C70_fields_unique.
Theorem C70_fields_exist : forall o l, delim_single o = false -> exists fs, fields_of o l fs.
Proof. intros o l H. unfold fields_of. rewrite H. apply words_ex. Qed.
Print Assumptions C70_fields_exist.

(* Reading: all the destinations get one row per used line after the skipped ones, and each field is stored
   where the layout says. *)
Theorem C70_read_table : forall V (dflt : V) o content args us fss,
  pattern_ok o -> delim_ok o -> used_lines o content us -> (N.of_nat (List.length us) < 2 ^ 64)%N ->
  (skip_first o <= N.of_nat (List.length us))%N ->
  Forall2 (fields_of o) (skipn (N.to_nat (skip_first o)) us) fss ->
  fits_rows args (List.length fss) -> Forall (row_ok args) fss ->
  exists sto, read_table V dflt o content args = Ok sto /\ sized args (List.length fss) sto /\
    forall i fs, nth_error fss i = Some fs -> row_stored args sto i fs.
Proof.
  intros V dflt o content args us fss P D U L K F Fi R. apply used_lines_iff in U; [|exact P].
  apply (read_good dflt o args content us fss U L K); auto.
  clear - F D. induction F; constructor; auto. now apply gives_fields.
Qed.
Print Assumptions C70_read_table.

(* A line with too few fields, or with a field that does not parse, is an error. *)
Theorem C70_bad_row_aborts : forall V (dflt : V) o content args us fss i fs,
  pattern_ok o -> delim_ok o -> used_lines o content us -> (N.of_nat (List.length us) < 2 ^ 64)%N ->
  (skip_first o <= N.of_nat (List.length us))%N ->
  Forall2 (fields_of o) (skipn (N.to_nat (skip_first o)) us) fss ->
  fits_rows args (List.length fss) -> nth_error fss i = Some fs -> ~ row_ok args fs ->
  read_table V dflt o content args = CheckFail.
Proof.
  intros V dflt o content args us fss i fs P D U L K F Fi E R. apply used_lines_iff in U; [|exact P].
  apply (read_bad dflt o args content us fss U L K); auto.
  - clear - F D. induction F; constructor; auto. now apply gives_fields.
  - intro H. apply R. rewrite Forall_forall in H. apply H. now apply nth_error_In in E.
Qed.
Print Assumptions C70_bad_row_aborts.

(* Where fields go: arguments in order, and the columns of a group are interleaved. *)
Theorem C70_layout_vector : forall V (args1 args2 : list (arg V)) p,
  nth_error (layout 0 (args1 ++ AVec V p :: args2)) (List.length (layout 0 args1)) =
  Some (Some (mk_dest (List.length args1) 0 1 0 p)).
Proof. intros. rewrite layout_app, nth_error_app2 by lia. now rewrite Nat.sub_diag. Qed.
Print Assumptions C70_layout_vector.
Theorem C70_layout_columns : forall V (args1 args2 : list (arg V)) m cols k c q, k < m -> nth_error cols c = Some q ->
  nth_error (layout 0 (args1 ++ AGroup V m cols :: args2)) (List.length (layout 0 args1) + (k * List.length cols + c)) =
  Some (option_map (mk_dest (List.length args1) c m k) q).
Proof.
  intros V args1 args2 m cols k c q Lk E. assert (Lc : c < List.length cols) by (apply nth_error_Some; congruence).
  rewrite layout_app, nth_error_app2 by lia.
  rewrite (Nat.add_comm (List.length (layout 0 args1))), Nat.add_sub. cbn [layout arg_layout].
  pose proof (group_nth V (0 + List.length args1) m cols k c m 0 Lk Lc) as H. rewrite E in H.
  rewrite nth_error_app1; [exact H|]. apply nth_error_Some. rewrite H. discriminate.
Qed.
Print Assumptions C70_layout_columns.

(* Several rows cannot be read into a scalar. *)
Theorem C70_scalar_rows_aborts : forall V (dflt : V) o content args1 p args2 us,
  pattern_ok o -> used_lines o content us -> (N.of_nat (List.length us) < 2 ^ 64)%N ->
  (skip_first o + 2 <= N.of_nat (List.length us))%N ->
  fits_rows args1 (List.length us - N.to_nat (skip_first o)) ->
  read_table V dflt o content (args1 ++ AScalar V p :: args2) = CheckFail.
Proof.
  intros V dflt o content args1 p args2 us P U L K F. apply used_lines_iff in U; [|exact P].
  rewrite (read_table_unfold dflt o _ content us U L) by lia. rewrite skipn_length.
  now rewrite (resize_scalar dflt args1 p args2) by (auto; lia).
Qed.
Print Assumptions C70_scalar_rows_aborts.

(* Whatever the file, the format and the parsers, the outcome is a value, an error message or an exception. *)
Theorem C70_never_undefined : forall V (dflt : V) o content args,
  (N.of_nat (List.length content) + 1 < 2 ^ 64)%N -> (skip_first o < 2 ^ 64)%N ->
  (forall m cols, In (AGroup V m cols) args -> ((N.of_nat (List.length content) + 1) * N.of_nat m < 2 ^ 64)%N) ->
  match read_table V dflt o content args with UB | Diverge => False | _ => True end.
Proof.
  intros V dflt o content args L K H. pose proof (used_length o content) as U.
  apply (read_decent dflt o args content); auto.
  - unfold two64N. lia.
  - intros m cols I. specialize (H m cols I). unfold two64N. nia.
Qed.
Print Assumptions C70_never_undefined.

(* Finding: the size n*m of columns(m, ...) is computed modulo 2^64 and the elements are then written without
   check. *)
Theorem C70_columns_overflow_UB : forall V (dflt : V) o content l1 l2 w t p v m,
  pattern_ok o -> delim_ok o -> skip_first o = 0%N -> used_lines o content [l1; l2] -> fields_of o l1 (w :: t) ->
  p w = Some v -> (N.of_nat m = 2 ^ 63)%N -> read_table V dflt o content [AGroup V m [Some p]] = UB.
Proof.
  intros V dflt o content l1 l2 w t p v m P D K U F Pw M. apply used_lines_iff in U; [|exact P].
  assert (DL : data_line o l1 = true).
  { pose proof (used_of_data o content) as X. unfold used_of in X. rewrite <- U in X. now inversion X. }
  rewrite (read_table_unfold dflt o _ content _ U); [|reflexivity|rewrite K; cbn; lia].
  rewrite K. cbn [N.to_nat skipn List.length]. cbn [omapl resize_arg]. rewrite M.
  replace ((N.of_nat 2 * 2 ^ 63) mod two64N)%N with 0%N by reflexivity.
  unfold resize_data. cbn [N.leb N.compare N.to_nat repeat obind max_elems ofold].
  rewrite (read_line_row o _ 0 _ l1 UB DL); [reflexivity|].
  destruct m as [|m]; [discriminate M|]. cbn [layout arg_layout seq map concat group_layout option_map app to_call ofold].
  pose proof (next_word_ok (start o l1) (w :: t) D (rem_start o l1 _ F)) as (s' & E & _).
  unfold do_call at 1. cbn [d_parse d_arg d_col d_mul d_off]. rewrite E. cbn [obind]. rewrite Pw. reflexivity.
Qed.
Print Assumptions C70_columns_overflow_UB.
Example C70_columns_overflow_ex : exists m,
  read_table str [] standard_in ("1" %s ++ [nl] ++ "2" %s) [AGroup str m [Some (fun w => Some w)]] = UB.
Proof.
  assert (X : exists m, N.of_nat m = (2 ^ 63)%N) by (eexists; apply Nnat.N2Nat.id).
  destruct X as [m M]. exists m. apply (C70_columns_overflow_UB _ _ _ _ ("1" %s) ("2" %s) ("1" %s) [] _ ("1" %s)); auto.
  - right. exists "#"%char, []. split; [reflexivity|]. intros [H|[H|[]]]; discriminate H.
  - discriminate.
  - apply used_lines_iff; [|reflexivity]. right. exists "#"%char, []. split; [reflexivity|]. intros [H|[H|[]]]; discriminate H.
  - unfold fields_of. cbn. apply (words_one _ [] ("1" %s) [] []); [intros c []|discriminate| |now left|constructor; intros c []].
    intros c [<-|[]] [H|[H|[]]]; discriminate H.
Qed.

(* Finding: with more lines to skip than there are, the number of rows wraps around and the resize throws. *)
Theorem C70_skip_first_too_large_refused_by_exception : forall V (dflt : V) o content us p args,
  pattern_ok o -> used_lines o content us -> (N.of_nat (List.length us) < skip_first o)%N ->
  (skip_first o <= N.of_nat (List.length us) + 2 ^ 63)%N -> (skip_first o < 2 ^ 64)%N ->
  read_table V dflt o content (AVec V p :: args) = Throws.
Proof.
  intros V dflt o content us p args P U L K K2. apply used_lines_iff in U; [|exact P]. unfold read_table.
  rewrite <- U. cbn [omapl resize_arg]. rewrite rows_n_wrap by (unfold two64N; lia). unfold resize_data.
  destruct (N.leb_spec (two64N - (skip_first o - N.of_nat (List.length us))) max_elems) as [X|X]; [|reflexivity].
  exfalso. unfold two64N, max_elems in X. lia.
Qed.
Print Assumptions C70_skip_first_too_large_refused_by_exception.
Example C70_skip_first_ex :
  read_table str [] (mk_in true ("#" %s) 1 blank2 false) ("# header only" %s) [AVec str (fun w => Some w)] = Throws.
Proof. vm_compute. reflexivity. Qed.

(* Finding: with delim_single (CSV), a line whose first field is empty gives an empty string for all its fields. *)
Theorem C70_empty_first_field_refuted : forall o content r k,
  pattern_ok o -> delim_single o = true -> skip_first o = 0%N -> used_lines o content [in_delim o ++ r] ->
  read_table str [] o content (repeat (AVec str (fun w => Some w)) k) = Ok (repeat [[[]]] k).
Proof.
  intros o content r k P Sg K U. apply used_lines_iff in U; [|exact P].
  assert (DL : data_line o (in_delim o ++ r) = true).
  { pose proof (used_of_data o content) as X. unfold used_of in X. rewrite <- U in X. now inversion X. }
  rewrite (read_table_unfold [] o _ content _ U); [|reflexivity|rewrite K; cbn; lia].
  rewrite K. cbn [N.to_nat skipn List.length].
  assert (E : omapl (resize_arg str [] (N.of_nat 1)) (repeat (AVec str (fun w => Some w)) k) = Ok (repeat [[[]]] k)).
  { clear. induction k as [|k IH]; [reflexivity|]. cbn [repeat omapl]. rewrite IH. reflexivity. }
  rewrite E. cbn [obind ofold].
  assert (F : feed k (start o (in_delim o ++ r)) (repeat [] k)) by (apply feed_stuck; cbn; eauto).
  destruct (stuck_row k k (start o (in_delim o ++ r)) [] 0 F eq_refl (le_n k)) as (s' & E2). cbn [app] in E2.
  unfold read_line at 1. rewrite DL. cbn [N.ltb N.compare]. unfold start in E2. rewrite E2. reflexivity.
Qed.
Print Assumptions C70_empty_first_field_refuted.
Example C70_empty_first_field_ex :
  read_table str [] csv_in (",b,c" %s) [AVec str (fun w => Some w); AVec str (fun w => Some w); AVec str (fun w => Some w)]
  = Ok [[["" %s]]; [["" %s]]; [["" %s]]] /\ cut_at ("," %s) (",b,c" %s) ["" %s; "b" %s; "c" %s].
Proof.
  split; [reflexivity|]. destruct (split_ok (",b,c" %s) ("," %s)) as (w & E & C); [discriminate|].
  cbv in E. injection E as <-. exact C.
Qed.

(* Finding: an empty skip pattern ignores every line that does not start with a blank. *)
Theorem C70_empty_pattern_refuted : forall o c t, auto_skip o = true -> skip_pattern o = [] -> ~ In c blank_chars ->
  data_line o (c :: t) = false.
Proof.
  intros o c t A S N. unfold data_line. cbn [find_first skipn first_at].
  assert (H : hasnt blank2 c = true).
  { destruct (hasnt blank2 c) eqn:E; [reflexivity|]. apply hasnt_false in E. now elim N. }
  rewrite H, A, S. reflexivity.
Qed.
Print Assumptions C70_empty_pattern_refuted.

(* A table with a comment, a blank line, a header to skip and grouped columns. *)
Definition any (w : str) : option str := Some w.
Example C70_read_ex :
  read_table str [] (mk_in true ("#" %s) 1 blank2 false)
    ("# id a1 b1 a2 b2" %s ++ [nl] ++ "id a b a b" %s ++ [nl] ++ [nl] ++ "  x  1 2   3 4 5" %s ++ [cr; nl] ++
     " # no" %s ++ [nl] ++ "y 6 7 8 9" %s ++ [nl])
    [AVec str any; AGroup str 2 [Some any; Some any]] =
  Ok [[["x" %s; "y" %s]]; [["1" %s; "3" %s; "6" %s; "8" %s]; ["2" %s; "4" %s; "7" %s; "9" %s]]].
Proof. reflexivity. Qed.
Example C70_missing_ex :
  read_table str [] standard_in ("1 2" %s ++ [nl] ++ "3" %s) [AVec str any; AVec str any] = CheckFail.
Proof. reflexivity. Qed.
Example C70_scalar_ex :
  read_table str [] standard_in ("1 2" %s) [ASkip str; AScalar str any] = Ok [[]; [["2" %s]]].
Proof. reflexivity. Qed.
