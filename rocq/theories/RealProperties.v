(* C82: conversion between strings and floating point numbers. *)
From Coq Require Import Ascii String QArith Qpower Qround Qabs Lqa.
From Verif Require Import Base StrModel StrSpec NumModel NumSpec NumProofs RealModel RealSpec RealProofs RealProofs2 RealProofs3 RealProofs4 ArgvModel.
Local Open Scope Z_scope.

(* from_string() into a double succeeds for every decimal number, with or without a fractional part and a
   power of ten, with white space around it, unless it is too large for a double; it stores this number. *)
Theorem C82_from_string : forall s v,
  (exists q, real_from_string s = Some (Num q) /\ (q == v)%Q) <->
  real_number s v /\ (Qabs v < inject_Z (2 ^ 1024 - 2 ^ 970))%Q.
Proof.
  intros s v. split.
  - intros (q & H & E). apply read_number_inv in H. destruct H as [(a & u & f & m & w & p & k & b & H1 & H2 & H3 & H4 & H5 & H6 & H7) L].
    split; [|now rewrite <- E]. exists a, u, f, m, w, p, k, b. rewrite <- E. repeat (split; auto).
  - intros [H L]. now apply read_number.
Qed.
Print Assumptions C82_from_string.
Example C82_from_string_ex :
  real_from_string (lit " -12.50e-1 ") = Some (Num ((-1250) # 1000)) /\ real_from_string (lit ".5") = Some (Num (5 # 10)) /\
  real_from_string (lit "1e400") = None /\ real_from_string (lit "1e") = None /\ real_from_string (lit "1.2.3") = None /\
  real_from_string (lit "5 kg") = None.
Proof. repeat split; vm_compute; reflexivity. Qed.

(* Otherwise only the words nan and inf, in any case and with a sign, are accepted, and without white space. *)
Theorem C82_special : forall s x, real_from_string s = Some (Special x) <->
  exists w, same_word s (lit w) /\
    match x with
    | NaN => w = "NAN"%string \/ w = "+NAN"%string \/ w = "-NAN"%string
    | PlusInf => w = "INF"%string \/ w = "+INF"%string \/ w = "INF+"%string
    | MinusInf => w = "-INF"%string \/ w = "INF-"%string
    end.
Proof.
  intros s x. rewrite read_special. unfold fallback. cbv zeta.
  assert (U : forall w, same_word s (lit w) <-> map upper s = map upper (lit w)) by (intros w; apply upper_word).
  split.
  - intros H. repeat match type of H with
    | context [list_eq_dec ascii_dec (map upper s) (lit' ?w)] =>
        destruct (list_eq_dec ascii_dec (map upper s) (lit' w)) as [E|_];
        [injection H as <-; exists w; split; [apply U; rewrite E; reflexivity|auto]|]
    end. discriminate.
  - intros (w & S0 & W). apply U in S0. destruct x; decompose [or] W; subst w; rewrite S0; reflexivity.
Qed.
Print Assumptions C82_special.
Example C82_special_ex : real_from_string (lit "-Inf") = Some (Special MinusInf) /\ real_from_string (lit "nan") = Some (Special NaN) /\
  real_from_string (lit " nan") = None /\ real_from_string (lit "infinity") = None.
Proof. repeat split; vm_compute; reflexivity. Qed.

(* to_string() writes a number with 6 significant digits that is closest to the number given. *)
Theorem C82_to_string : forall x, exists v, real_number (real_to_string x) v /\ closest 6 x v /\
  (Qabs (v - x) <= (1 # 200000) * Qabs x)%Q.
Proof. exact to_string_number. Qed.
Print Assumptions C82_to_string.
Example C82_to_string_ex : real_to_string (1 # 3) = lit "0.333333" /\ real_to_string (-(123456789 # 1)) = lit "-1.23457e+08" /\
  real_to_string (1 # 80000) = lit "1.25e-05" /\ real_to_string (2 ^ 70) = lit "1.18059e+21" /\ real_to_string (1 # 10 ^ 123) = lit "1e-123" /\
  real_to_string (1000005 # 10) = lit "100000" /\ real_to_string (1000015 # 10) = lit "100002".
Proof. repeat split; vm_compute; reflexivity. Qed.

(* Numbers that are neither very small nor very large are written without power of ten, and without useless
   zeros. *)
Theorem C82_to_string_plain : forall x, (x == 0)%Q \/ ((1 # 10000) <= x)%Q /\ (x <= 999999)%Q ->
  exists v, plain_number (real_to_string x) v /\ closest 6 x v.
Proof. exact to_string_plain_real. Qed.
Print Assumptions C82_to_string_plain.
Example C82_to_string_plain_ex : real_to_string (5 # 2) = lit "2.5" /\ real_to_string 100 = lit "100" /\ real_to_string (1 # 8000) = lit "0.000125" /\
  real_to_string (99999999 # 10000) = lit "10000".
Proof. repeat split; vm_compute; reflexivity. Qed.

(* Every double is read back from its string, up to this rounding; exactly, when it has 6 digits. *)
Theorem C82_round_trip : forall x, (Qabs x <= largest_double)%Q ->
  exists q, real_from_string (real_to_string x) = Some (Num q) /\ closest 6 x q /\ (significant 6 x -> (q == x)%Q).
Proof.
  intros x H. destruct (read_back x H) as (q & E & C). exists q. split; auto. split; auto. intros Sx.
  destruct C as [_ C]. specialize (C x Sx). setoid_replace (x - x)%Q with 0%Q in C by ring. change (Qabs 0) with 0%Q in C.
  apply Qabs_Qle_condition in C. lra.
Qed.
Print Assumptions C82_round_trip.
Example C82_round_trip_ex : real_from_string (real_to_string (5 # 4)) = Some (Num (125 # 100)) /\
  (exists q, real_from_string (real_to_string largest_double) = Some (Num q) /\ (q == inject_Z (179769 * 10 ^ 303))%Q).
Proof. split; [vm_compute; reflexivity|]. eexists. split; [vm_compute; reflexivity|]. vm_compute. reflexivity. Qed.
(* Finding (string_conversion.hpp:134-139): to_string() keeps 6 digits of a double only, so that the number
   read back is another one. *)
Theorem C82_digits_refuted : exists x q, (Qabs x <= largest_double)%Q /\ real_from_string (real_to_string x) = Some (Num q) /\ ~ (q == x)%Q.
Proof. exists 1234567%Q, 1234570%Q. split; [vm_compute; discriminate|]. split; [vm_compute; reflexivity|]. discriminate. Qed.
Print Assumptions C82_digits_refuted.
