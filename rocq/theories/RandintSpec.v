(* C105: what is expected of random integers and coins. *)
From Coq Require Import QArith.
From Verif Require Import Base.
Local Open Scope nat_scope.

(* a rounding that keeps the order and the integers that a double can hold *)
Definition rounding (rnd : Q -> Q) : Prop :=
  (forall a b, (a <= b)%Q -> (rnd a <= rnd b)%Q) /\ (forall z, (Z.abs z <= 2 ^ 53)%Z -> (rnd (inject_Z z) == inject_Z z)%Q).
(* how many of the numbers 0/n, 1/n ... (n-1)/n satisfy p *)
Definition howmany (n : nat) (p : Q -> bool) : nat :=
  length (filter (fun k => p (Z.of_nat k # Pos.of_nat n)%Q) (seq 0 n)).
