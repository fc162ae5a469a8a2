(* What the distance to a hull is supposed to be. *)
From Verif Require Import Base HdistModel.
(* counterclockwise or clockwise *)
Definition orientation (o : Z) : Prop := (o = 1 \/ o = -1)%Z.
From mathcomp Require Import all_ssreflect all_algebra.
Set Implicit Arguments.
Unset Strict Implicit.
Unset Printing Implicit Defensive.
Import GRing.Theory Num.Theory.
Local Open Scope ring_scope.

Section Spec.
Variable R : rcfType.
Local Notation point := (R * R)%type.

Definition dist2 (p q : point) : R := (p.1 - q.1) ^+ 2 + (p.2 - q.2) ^+ 2.
Definition on_segment (a b q : point) : Prop :=
  exists t, 0 <= t <= 1 /\ q = (a.1 + t * (b.1 - a.1), a.2 + t * (b.2 - a.2)).
(* a is followed by b *)
Definition consecutive (l : list point) (a b : point) : Prop := exists l1 l2, l = l1 ++ a :: b :: l2.
(* q is on the line that joins the points of l *)
Definition border (l : list point) (q : point) : Prop := exists a b, consecutive l a b /\ on_segment a b q.
(* r is the distance from p to the closest point of S *)
Definition distance_to (S : point -> Prop) (p : point) (r : R) : Prop :=
  0 <= r /\ (exists q, S q /\ dist2 p q = r ^+ 2) /\ forall q, S q -> r ^+ 2 <= dist2 p q.
(* twice the signed area of a b c *)
Definition area2 (a b c : point) : R := (b.1 - a.1) * (c.2 - a.2) - (b.2 - a.2) * (c.1 - a.1).
(* p is on the left of all edges (sg = 1) or on the right of all edges (sg = -1) *)
Definition within (sg : R) (l : list point) (p : point) : Prop :=
  forall a b, consecutive l a b -> 0 <= sg * area2 a b p.
Definition sg_of (o : Z) : R := if Z.eqb o 1 then 1 else -1.

(* the model with the operations of R, and nothing lost when vectors are stored *)
Definition hull_distance (eps px py : R) (h : fhull R) :=
  convex_hull_distance 0 +%R (fun x y => x - y) *%R (fun x y => x / y) Num.norm -%R Num.sqrt (fun x y => x < y)
    (fun x y => x == y) keep eps px py h.
Definition hull_distance_vec (eps : R) (D : list nat) (px : list R) (D' : list nat) (py : list R) (h : fhull R) :=
  convex_hull_distance_vec 0 +%R (fun x y => x - y) *%R (fun x y => x / y) Num.norm -%R Num.sqrt (fun x y => x < y)
    (fun x y => x == y) keep eps D px D' py h.
Definition hull_contains (eps px py : R) (h : fhull R) :=
  in_hull 0 (fun x y => x - y) *%R Num.norm -%R (fun x y => x < y) eps px py h.
(* a hull with these vertices, as left by build_convex_hull (o = 1) or validated by hand *)
Definition ready_hull (x y : list R) (o : Z) : fhull R := Fhull x y true true o None.
End Spec.
