(* Independent vocabulary for decimal numbers with a fractional part and an exponent. *)
From Coq Require Import Ascii String QArith Qabs.
From Verif Require Import Base StrSpec NumSpec.
Local Open Scope Z_scope.

(* digits that may be missing: no digit stands for zero *)
Definition writes0 (d : list ascii) (n : Z) : Prop := (d = [] /\ n = 0) \/ writes d n.
(* digits, and digits after the decimal point if there is one *)
Definition mantissa (s : list ascii) (v : Q) : Prop :=
  (exists n, writes s n /\ (v == inject_Z n)%Q) \/
  (exists d f n k, s = d ++ "."%char :: f /\ d ++ f <> [] /\ writes0 d n /\ writes0 f k /\
     (v == inject_Z n + inject_Z k / 10 ^ Z.of_nat (List.length f))%Q).
(* nothing, or a power of ten *)
Definition power_text (s : list ascii) (k : Z) : Prop :=
  (s = [] /\ k = 0) \/
  (exists c u f d n, s = c :: u ++ d /\ (c = "e"%char \/ c = "E"%char) /\ sign_text u f /\ writes d n /\ k = f * n).
(* s is the number v, with white space around it *)
Definition real_number (s : list ascii) (v : Q) : Prop :=
  exists a u f m w p k b, s = a ++ u ++ m ++ p ++ b /\ made_of white_space a /\ made_of white_space b /\
    sign_text u f /\ mantissa m w /\ power_text p k /\ (v == inject_Z f * w * 10 ^ k)%Q.
(* v has at most n significant decimal digits *)
Definition significant (n : Z) (v : Q) : Prop := exists k j, Z.abs k < 10 ^ n /\ (v == inject_Z k * 10 ^ j)%Q.
(* v is one of the closest to x among the numbers with n significant digits *)
Definition closest (n : Z) (x v : Q) : Prop :=
  significant n v /\ forall w, significant n w -> (Qabs (v - x) <= Qabs (w - x))%Q.
(* plain notation, without useless zeros *)
Definition plain_number (s : list ascii) (v : Q) : Prop :=
  exists d n, writes d n /\ shortest d /\
    ((s = d /\ (v == inject_Z n)%Q) \/
     (exists f k, s = d ++ "."%char :: f /\ writes f k /\ (forall g, f <> g ++ ["0"%char]) /\
        (v == inject_Z n + inject_Z k / 10 ^ Z.of_nat (List.length f))%Q)).
Definition largest_double : Q := inject_Z (2 ^ 1024 - 2 ^ 971).
