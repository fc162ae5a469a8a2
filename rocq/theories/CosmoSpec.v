(* Vocabulary for cosmological functions of vecs. *)
From Coq Require Import QArith.
From Verif Require Import Base InterpSpec.
Local Open Scope nat_scope.

(* what rgen_log(a, b, n) gives: n increasing numbers, the first is a and the last is b; the same number n
   times if a and b are the same *)
Definition log_grid (rgen_log : Q -> Q -> nat -> outcome (list Q)) : Prop :=
  forall a b n, (0 < a)%Q -> (a <= b)%Q -> 2 <= n ->
    exists g x0 xn, rgen_log a b n = Ok g /\ length g = n /\
      nth_error g 0 = Some x0 /\ (x0 == a)%Q /\ nth_error g (n - 1) = Some xn /\ (xn == b)%Q /\
      ((a < b)%Q -> increasing g) /\ ((a == b)%Q -> forall x, In x g -> (x == a)%Q).
(* a is the smallest and b the largest of the positive redshifts *)
Definition positive_range (z : list (option Q)) (a b : Q) : Prop :=
  In (Some a) z /\ In (Some b) z /\ (0 < a)%Q /\ (0 < b)%Q /\ forall q, In (Some q) z -> (0 < q)%Q -> (a <= q <= b)%Q.
