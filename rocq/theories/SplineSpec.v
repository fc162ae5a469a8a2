(* Independent vocabulary for cubic splines. *)
From Coq Require Import QArith.
From Verif Require Import Base InterpSpec.
Local Open Scope nat_scope.

(* value, slope and curvature at distance u of a + b u + c u^2 + d u^3 *)
Definition cubic (a b c d u : Q) : Q := (a + b * u + c * (u * u) + d * (u * u * u))%Q.
Definition slope (b c d u : Q) : Q := (b + 2 * c * u + 3 * d * (u * u))%Q.
Definition curvature (c d u : Q) : Q := (2 * c + 6 * d * u)%Q.

(* n intervals with nodes x 0 < ... < x n, and on interval k the cubic
   y k + b k u + c k u^2 + d k u^3 with u = t - x k *)
Section Spline.
Variables (n : nat) (x y b c d : nat -> Q).
Let h (k : nat) : Q := (x (k + 1) - x k)%Q.

(* the pieces meet at the nodes *)
Definition through : Prop := forall k, k < n -> (cubic (y k) (b k) (c k) (d k) (h k) == y (k + 1))%Q.
(* ... with the same curvature, which vanishes at both ends *)
Definition smooth2 : Prop :=
  (forall k, k + 1 < n -> (curvature (c k) (d k) (h k) == curvature (c (k + 1)) (d (k + 1)) 0)%Q) /\
  (curvature (c 0) (d 0) 0 == 0)%Q /\ (curvature (c (n - 1)) (d (n - 1)) (h (n - 1)) == 0)%Q.
(* ... with the same slope *)
Definition smooth1 : Prop :=
  forall k, k + 1 < n -> (slope (b k) (c k) (d k) (h k) == slope (b (k + 1)) (c (k + 1)) (d (k + 1)) 0)%Q.

Definition natural_spline : Prop := through /\ smooth2 /\ smooth1.

(* the value at t: the piece containing t; straight lines outside the nodes *)
Definition spline_at (t r : Q) : Prop :=
  (t < x 0 /\ r == y 0 + slope (b 0) (c 0) (d 0) 0 * (t - x 0))%Q \/
  (exists k : nat, (k < n)%nat /\ x k <= t /\ t < x (k + 1) /\ r == cubic (y k) (b k) (c k) (d k) (t - x k))%Q \/
  (x n <= t /\ r == y n + slope (b (n - 1)) (c (n - 1)) (d (n - 1)) (h (n - 1)) * (t - x n))%Q.
End Spline.

Definition node (l : list Q) (i : nat) : Q := nth i l 0%Q.

(* the nodes 0, 1, 2, ... *)
Definition unit_node (i : nat) : Q := inject_Z (Z.of_nat i).
(* nodes in increasing order *)
Definition ordered (n : nat) (x : nat -> Q) : Prop := forall i, i < n -> (x i < x (i + 1)%nat)%Q.
(* r is the value at t of the natural cubic spline through (x 0, y 0), ..., (x n, y n) *)
Definition natural_value (n : nat) (x y : nat -> Q) (t r : Q) : Prop :=
  exists b c d, natural_spline n x y b c d /\ spline_at n x y b c d t r.

(* element (i, j) of a row-major map *)
Definition cell (d1 : nat) (data : list Q) (i j : nat) : Q := nth (i * d1 + j) data 0%Q.
