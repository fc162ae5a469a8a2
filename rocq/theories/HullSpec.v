(* What the convex hull functions are supposed to compute. *)
From Coq Require Export Permutation Sorted.
From Verif Require Import Base HullModel.
Open Scope Z_scope.

Definition pt := (Z * Z)%type.
(* twice the signed area of the triangle a b c: positive when c is on the left of the line from a to b *)
Definition area2 (a b c : pt) : Z :=
  (fst b - fst a) * (snd c - snd a) - (snd b - snd a) * (fst c - fst a).
(* the points given by their two coordinate vectors *)
Definition points (x y : list Z) : list pt := combine x y.
Definition vertices (h : hull) : list pt := combine (h_x h) (h_y h).
(* consecutive elements *)
Definition edge (l : list pt) (a b : pt) : Prop := exists l1 l2, l = l1 ++ a :: b :: l2.
Definition corner (l : list pt) (a b c : pt) : Prop := exists l1 l2, l = l1 ++ a :: b :: c :: l2.
(* the closed list with its first edge repeated: its corners are all the corners *)
Definition around (l : list pt) : list pt := l ++ firstn 1 (skipn 1 l).
Definition collinear (l : list pt) : Prop :=
  forall a b c, In a l -> In b l -> In c l -> area2 a b c = 0.
(* q belongs to every half-plane that contains all points of l: q is in the convex hull of l *)
Definition in_hull_of (l : list pt) (q : pt) : Prop :=
  forall a b c, (forall p, In p l -> a * fst p + b * snd p <= c) -> a * fst q + b * snd q <= c.

(* what std::sort guarantees for a strict weak order: a permutation without inversions *)
Definition sorts (lt : nat -> nat -> bool) (s : list nat -> list nat) : Prop :=
  forall l, Permutation l (s l) /\ StronglySorted (fun i j => lt j i = false) (s l).
