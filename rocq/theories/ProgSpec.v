(* What a progress bar should show. *)
From Coq Require Import Ascii String QArith.
From Verif Require Import Base NumSpec.
Local Open Scope list_scope.
Local Open Scope Z_scope.

Definition say (s : string) : list ascii := list_ascii_of_string s.
(* the number k, written on at least w characters *)
Definition number_on (w : nat) (k : Z) (s : list ascii) : Prop := exists d b, writes d k /\ shortest d /\ s = repeat " "%char b ++ d /\
  (b = 0%nat /\ (w <= List.length d)%nat \/ List.length s = w).
(* n has w digits *)
Definition digits_of (n : Z) (w : nat) : Prop := exists d, writes d n /\ shortest d /\ List.length d = w.
(* k is the integer part of a/b *)
Definition part_of (a b k : Z) : Prop := k * b <= a < (k + 1) * b.
(* the text of a bar of length len after done iterations among n, with the texts of the time elapsed, left, and in total *)
Definition bar_text (len done n : Z) (t1 t2 t3 : list ascii) (s : list ascii) : Prop :=
  exists k pct w c1 c2, part_of (len * done) n (Z.of_nat k) /\ (Z.of_nat k <= len) /\ part_of (100 * done) n pct /\ digits_of n w /\
    number_on w done c1 /\ number_on 3 pct c2 /\
    s = say "[" ++ repeat "-"%char k ++ repeat " "%char (Z.to_nat (len - Z.of_nat k)) ++ say "] " ++ c1 ++ say " " ++ c2 ++ say "%, "
        ++ t1 ++ say " elapsed, " ++ t2 ++ say " left, " ++ t3 ++ say " total".
(* s written over a line on which mx characters may still be seen, and followed by as many blanks as needed to hide them *)
Definition over (mx : nat) (s out : list ascii) : Prop :=
  exists b, out = "013"%char :: s ++ repeat " "%char b /\ (List.length s + b = Nat.max mx (List.length s))%nat.
