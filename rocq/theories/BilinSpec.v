(* Independent vocabulary for bilinear interpolation. *)
From Coq Require Import QArith.
From Verif Require Import Base InterpSpec SplineSpec.
Local Open Scope nat_scope.

(* line i is the lower corner to use at t among n lines: the one below t, or the first / last *)
Definition line_for (n i : nat) (t : Q) : Prop :=
  i + 1 < n /\ (i = 0 \/ (unit_node i <= t)%Q) /\ (i + 2 = n \/ (t < unit_node (i + 1))%Q).

(* the value at fractions (u, v) of the patch over the pixels (i, j), (i, j+1), (i+1, j), (i+1, j+1) *)
Definition patch (f : nat -> nat -> Q) (i j : nat) (u v : Q) : Q :=
  ((1 - u) * ((1 - v) * f i j + v * f i (j + 1)%nat) + u * ((1 - v) * f (i + 1)%nat j + v * f (i + 1)%nat (j + 1)%nat))%Q.

(* t is at fraction u of the interval i of the axis m *)
Definition fraction (m : list Q) (i : nat) (t u : Q) : Prop := (t == node m i + u * (node m (i + 1) - node m i))%Q.

(* positions that convert to a 64-bit integer *)
Definition in_int64 (t : Q) : Prop := (- inject_Z two63 <= t < inject_Z two63)%Q.

(* the map has size d0 x d1 *)
Definition map_ok (d0 d1 : nat) (data : list Q) : Prop := length data = d0 * d1 /\ (Z.of_nat (d0 * d1) < two64)%Z.
