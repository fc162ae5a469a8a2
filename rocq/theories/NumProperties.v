(* C77: conversion between strings and integers. *)
From Coq Require Import Ascii String.
From Verif Require Import Base StrSpec NumModel NumSpec NumProofs ArgvModel ArgvSpec ArgvProofs StrProofs.
Local Open Scope Z_scope.

(* from_string() into a signed integer type succeeds exactly for a number in the range of the type, with
   white space allowed around it, and then stores this number. *)
Theorem C77_from_string_signed : forall bits s t x, 1 <= bits ->
  (from_string true bits s t = (true, x) <-> int_text s x /\ - 2 ^ (bits - 1) <= x <= 2 ^ (bits - 1) - 1).
Proof. exact from_string_signed. Qed.
Print Assumptions C77_from_string_signed.
Example C77_from_string_signed_ex :
  from_string true 64 (lit " -0042 ") 7 = (true, -42) /\ from_string true 64 (lit "-9223372036854775808") 7 = (true, - 2 ^ 63) /\
  from_string true 64 (lit "9223372036854775808") 7 = (false, 2 ^ 63 - 1) /\ from_string true 32 (lit "+12") 7 = (true, 12) /\
  from_string true 64 (lit "1 2") 7 = (false, 1) /\ from_string true 64 (lit "- 2") 7 = (false, 0).
Proof. repeat split; vm_compute; reflexivity. Qed.

(* Into an unsigned type the number may be negative: it is reduced modulo 2^bits. *)
Theorem C77_from_string_unsigned : forall bits s t x, 0 <= bits ->
  (from_string false bits s t = (true, x) <-> exists y, int_text s y /\ Z.abs y <= 2 ^ bits - 1 /\ x = y mod 2 ^ bits).
Proof. exact from_string_unsigned. Qed.
Print Assumptions C77_from_string_unsigned.
Example C77_from_string_unsigned_ex :
  from_string false 64 (lit "18446744073709551615") 7 = (true, 2 ^ 64 - 1) /\ from_string false 64 (lit "18446744073709551616") 7 = (false, 2 ^ 64 - 1).
Proof. split; vm_compute; reflexivity. Qed.
(* Finding (string_conversion.hpp:193-207): a negative number is accepted for an unsigned type, and is
   stored as a huge one. *)
Theorem C77_negative_refuted : exists s x, int_text s (-1) /\ from_string false 64 s 0 = (true, x) /\ x = 2 ^ 64 - 1.
Proof.
  exists (lit "-1"), (2 ^ 64 - 1). split; [exact (to_string_text (-1))|]. split; [vm_compute; reflexivity|reflexivity].
Qed.
Print Assumptions C77_negative_refuted.

(* Every string converts, or not, and the variable keeps its value only when there is no word at all. *)
Theorem C77_blank : forall signed bits s t, made_of white_space s -> from_string signed bits s t = (false, t).
Proof. exact from_string_blank. Qed.
Print Assumptions C77_blank.
Example C77_blank_ex : from_string true 64 [" "; "009"; "010"]%char 7 = (false, 7).
Proof. reflexivity. Qed.
(* Out of range, the closest value is stored, and the conversion fails. *)
Theorem C77_out_of_range : forall bits s t x, 1 <= bits -> int_text s x ->
  (2 ^ (bits - 1) - 1 < x -> from_string true bits s t = (false, 2 ^ (bits - 1) - 1)) /\
  (x < - 2 ^ (bits - 1) -> from_string true bits s t = (false, - 2 ^ (bits - 1))).
Proof. exact from_string_range. Qed.
Print Assumptions C77_out_of_range.
(* Finding (string_conversion.hpp:193-207): a failed conversion may leave another value in the variable. *)
Theorem C77_failure_modifies_refuted : exists s, from_string true 64 s 7 = (false, 12) /\ exists s', from_string true 64 s' 7 = (false, 0).
Proof. exists (lit "12 apples"). split; [vm_compute; reflexivity|]. exists (lit "apples"). vm_compute. reflexivity. Qed.
Print Assumptions C77_failure_modifies_refuted.

(* to_string() gives the shortest decimal representation. *)
Theorem C77_to_string : forall x, exists d, writes d (Z.abs x) /\ shortest d /\
  to_string x = (if x <? 0 then ["-"%char] else []) ++ d.
Proof. exact to_string_spec. Qed.
Print Assumptions C77_to_string.
Example C77_to_string_ex : to_string (-18446744073709551615) = lit "-18446744073709551615" /\ to_string 0 = lit "0" /\ to_string 1000 = lit "1000".
Proof. repeat split; vm_compute; reflexivity. Qed.

(* Every value of a type is read back from its string. *)
Theorem C77_round_trip : forall bits t x, 1 <= bits ->
  (- 2 ^ (bits - 1) <= x <= 2 ^ (bits - 1) - 1 -> from_string true bits (to_string x) t = (true, x)) /\
  (0 <= x <= 2 ^ bits - 1 -> from_string false bits (to_string x) t = (true, x)).
Proof.
  intros bits t x Hb. split; intros R.
  - apply from_string_signed; auto. split; auto. apply to_string_text.
  - apply from_string_unsigned; [lia|]. exists x. split; [apply to_string_text|]. split; [lia|]. rewrite Z.mod_small; lia.
Qed.
Print Assumptions C77_round_trip.
Example C77_round_trip_ex : from_string true 64 (to_string (-1234567890123)) 0 = (true, -1234567890123) /\
  from_string false 64 (to_string (2 ^ 64 - 1)) 0 = (true, 2 ^ 64 - 1).
Proof. split; vm_compute; reflexivity. Qed.

(* The vectorised version converts each element; the output is resized, or checked when it is a view. *)
Theorem C77_from_string_vec : forall signed bits s t i si, nth_error s i = Some si ->
  length (from_string_vec signed bits s t) = length s /\
  nth_error (from_string_vec signed bits s t) i =
    Some (from_string signed bits si (match nth_error t i with Some x => x | None => 0 end)).
Proof.
  intros signed bits s t i si H. unfold from_string_vec.
  set (t' := firstn (length s) t ++ repeat 0 (length s - length t)).
  assert (L : length t' = length s).
  { unfold t'. rewrite app_length, firstn_length, repeat_length. lia. }
  split; [rewrite map_length, combine_length; lia|].
  assert (Hi : (i < length s)%nat) by (apply nth_error_Some; congruence).
  assert (T : nth_error t' i = Some (match nth_error t i with Some x => x | None => 0 end)).
  { unfold t'. destruct (Nat.lt_ge_cases i (length t)) as [C|C].
    - rewrite nth_error_app1 by (rewrite firstn_length; lia). destruct (nth_error t i) eqn:E; [|apply nth_error_None in E; lia].
      rewrite <- E. clear -Hi. revert t i Hi. generalize (length s) as n. induction n as [|n IH]; intros [|x t] [|i] Hi; cbn; auto; try lia.
      apply IH. lia.
    - replace (nth_error t i) with (@None Z) by (symmetry; now apply nth_error_None).
      rewrite nth_error_app2 by (rewrite firstn_length; lia). apply nth_error_repeat. rewrite firstn_length. lia. }
  clearbody t'. clear L Hi. revert s t' si H T. generalize (match nth_error t i with Some x => x | None => 0 end) as y. clear t.
  induction i as [|i IH]; intros y [|a s] [|b t'] si H T; try discriminate; cbn in *.
  - now injection H as ->; injection T as ->.
  - now apply IH.
Qed.
Print Assumptions C77_from_string_vec.
Theorem C77_from_string_view : forall signed bits s t,
  (length s = length t -> exists r, from_string_view signed bits s t = Ok r /\ r = from_string_vec signed bits s t) /\
  (length s <> length t -> from_string_view signed bits s t = CheckFail).
Proof.
  intros signed bits s t. unfold from_string_view. destruct (Nat.eqb_spec (length s) (length t)) as [E|N]; split; intros H; try tauto.
  - eexists. split; [reflexivity|]. unfold from_string_vec. rewrite H, Nat.sub_diag, firstn_all. cbn [repeat]. now rewrite app_nil_r.
Qed.
Print Assumptions C77_from_string_view.
Example C77_from_string_vec_ex :
  from_string_vec true 64 [lit "5"; lit "x"; lit " "; lit ""] [1; 2; 3] = [(true, 5); (false, 0); (false, 3); (false, 0)] /\
  from_string_view true 64 [lit "5"] [1; 2; 3] = CheckFail.
Proof. split; vm_compute; reflexivity. Qed.

(* The words for the special floating point values, in any case. *)
Theorem C77_special : forall s v,
  (fallback s = Some v <->
   match v with
   | NaN => same_word s (lit "nan") \/ same_word s (lit "+nan") \/ same_word s (lit "-nan")
   | PlusInf => same_word s (lit "inf") \/ same_word s (lit "+inf") \/ same_word s (lit "inf+")
   | MinusInf => same_word s (lit "-inf") \/ same_word s (lit "inf-")
   end).
Proof.
  assert (M : map upper (lit "nan") = lit' "NAN" /\ map upper (lit "+nan") = lit' "+NAN" /\ map upper (lit "-nan") = lit' "-NAN" /\
    map upper (lit "inf") = lit' "INF" /\ map upper (lit "+inf") = lit' "+INF" /\ map upper (lit "inf+") = lit' "INF+" /\
    map upper (lit "-inf") = lit' "-INF" /\ map upper (lit "inf-") = lit' "INF-") by (repeat split; reflexivity).
  destruct M as (M1 & M2 & M3 & M4 & M5 & M6 & M7 & M8).
  intros s v. unfold fallback.
  destruct v; rewrite !upper_word, ?M1, ?M2, ?M3, ?M4, ?M5, ?M6, ?M7, ?M8; clear; generalize (map upper s) as u; intros u;
  repeat match goal with |- context[list_eq_dec ascii_dec u ?w] => destruct (list_eq_dec ascii_dec u w) as [->|?] end;
    cbn [orb]; split; intros H; try discriminate; auto;
    repeat match goal with H : _ \/ _ |- _ => destruct H end; subst; try contradiction; discriminate.
Qed.
Print Assumptions C77_special.
Example C77_special_ex : fallback (lit "NaN") = Some NaN /\ fallback (lit "-Inf") = Some MinusInf /\ fallback (lit "infinity") = None.
Proof. repeat split; vm_compute; reflexivity. Qed.
(* Finding (string_conversion.hpp:169-184): white space is accepted around a number, not around these
   words, and "infinity", which the standard functions accept, is refused. *)
Theorem C77_special_blank_refuted : fallback (lit " nan") = None /\ fallback (lit "nan ") = None /\ fallback (lit "infinity") = None.
Proof. repeat split; vm_compute; reflexivity. Qed.
Print Assumptions C77_special_blank_refuted.

(* The integers can be written to and read from the command line (C76). *)
Theorem C77_int_argument : forall x, - 2 ^ 63 <= x <= 2 ^ 63 - 1 ->
  let parse s := let '(b, v) := from_string true 64 s 0 in if b : bool then Some v else None in
  writable parse to_string (Scalar x) /\ writable parse to_string (Vector [x]).
Proof.
  intros x R. cbv zeta.
  assert (P : from_string true 64 (to_string x) 0 = (true, x)).
  { apply from_string_signed; [lia|]. split; [apply to_string_text|exact R]. }
  destruct (to_string_spec x) as (d & W & _ & E). apply writes_iff in W. destruct W as (N & A & _).
  assert (Last : exists t c, to_string x = t ++ [c] /\ is_digit c = true).
  { destruct (exists_last N) as (d' & c & Ed). exists ((if x <? 0 then ["-"%char] else []) ++ d'), c.
    rewrite E, Ed. split; [now rewrite app_assoc|]. apply A. rewrite Ed. apply in_or_app. right. now left. }
  assert (First : exists c t, to_string x = c :: t /\ (is_digit c = true \/ c = "-"%char)).
  { rewrite E. destruct (x <? 0); cbn [app]; [exists "-"%char, d; auto|]. destruct d as [|c d]; [tauto|].
    exists c, d. split; auto. left. apply A. now left. }
  assert (In_ : forall c, In c (to_string x) -> is_digit c = true \/ c = "-"%char).
  { intros c I. rewrite E in I. apply in_app_or in I. destruct I as [I|I]; auto. destruct (x <? 0); [destruct I as [<-|[]]; auto|destruct I]. }
  assert (Dg : forall c, is_digit c = true \/ c = "-"%char -> ~ In c blank_chars /\ ~ In c quote_chars /\ c <> ","%char).
  { intros c [D| ->].
    - repeat split; try (intros I; cbn in I; intuition (subst; discriminate)).
    - repeat split; try (intros I; cbn in I; intuition discriminate). }
  assert (Co : forall chars, (forall c, is_digit c = true \/ c = "-"%char -> ~ In c chars) -> strip chars (to_string x) = to_string x).
  { intros chars H. apply strip_core. right. split.
    - destruct First as (c & t & Ef & D). exists c, t. auto.
    - destruct Last as (t & c & El & D). exists t, c. auto. }
  assert (C : clean (to_string x) = to_string x).
  { unfold clean. rewrite Co by (intros c D; now apply Dg). apply Co. intros c D. now apply Dg. }
  assert (Nn : to_string x <> []) by (destruct First as (c & t & -> & _); discriminate).
  cbn [writable]. rewrite P. split; [split; auto|]. intros y [<-|[]]. rewrite P. repeat split; auto.
  intros I. apply In_ in I. now apply Dg in I.
Qed.
Print Assumptions C77_int_argument.
Example C77_int_argument_ex :
  let parse s := let '(b, v) := from_string true 64 s 0 in if b : bool then Some v else None in
  assigned parse 1 (Vector [0]) (lit "v=[-12, 7]") = Some (Vector [-12; 7]).
Proof. vm_compute. reflexivity. Qed.
