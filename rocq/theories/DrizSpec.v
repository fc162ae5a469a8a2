(* What regridding by drizzling should do, in terms of plane geometry only. *)
From Coq Require Import QArith Qabs List ZArith.
Import ListNotations.
Local Open Scope Q_scope.

Definition point : Type := Q * Q.
(* twice the area of the triangle p q r, positive when r is on the left of the line from p to q *)
Definition side (p q r : point) : Q :=
  (fst q - fst p) * (snd r - snd p) - (snd q - snd p) * (fst r - fst p).

(* the edges of a polygon: from each vertex to the next, and from the last one to the first *)
Fixpoint path (p : point) (l : list point) (z : point) : list (point * point) :=
  match l with [] => [(p, z)] | q :: t => (p, q) :: path q t z end.
Definition edges (ps : list point) : list (point * point) :=
  match ps with [] => [] | p :: t => path p t p end.

Definition region : Type := Q -> Q -> Prop.
(* the points that lie on the left (o = 1) or on the right (o = -1) of every edge, at a depth of
   more than t (as a value of [side]) *)
Definition deeper (t o : Q) (ps : list point) : region := fun x y =>
  forall p q, In (p, q) (edges ps) -> t < o * side p q (x, y).
Definition inside (o : Q) (ps : list point) : region := deeper 0 o ps.
(* the pixel of integer coordinates (x, y) covers half a unit around them *)
Definition in_pixel (ix iy : Z) : region := fun x y =>
  inject_Z ix - (1#2) <= x /\ x <= inject_Z ix + (1#2) /\
  inject_Z iy - (1#2) <= y /\ y <= inject_Z iy + (1#2).
Definition both (S T : region) : region := fun x y => S x y /\ T x y.

(* the horizontal section of S at y is an interval of length len (its ends may be missing) *)
Definition section (S : region) (y len : Q) : Prop :=
  exists a b, a <= b /\ len == b - a /\
    (forall x, a < x -> x < b -> S x y) /\ (forall x, S x y -> a <= x /\ x <= b).
(* The area of the part of S between the horizontal lines y = a and y = b.  Where the length of the
   section is an affine function of y, that part is a trapezoid: its area is the height times the
   length half way. *)
Inductive area (S : region) : Q -> Q -> Q -> Prop :=
| area_strip a b m k : a <= b ->
    (forall y, a < y -> y < b -> section S y (m * y + k)) ->
    area S a b ((b - a) * (m * ((a + b) / 2) + k))
| area_join a b c A B : area S a b A -> area S b c B -> area S a c (A + B)
| area_eq a b A a' b' A' : a == a' -> b == b' -> A == A' -> area S a b A -> area S a' b' A'.

(* a convex quadrilateral whose corners are met counterclockwise *)
Definition convex4 (a b c d : point) : Prop :=
  0 <= side a b c /\ 0 <= side a b d /\ 0 <= side a c d /\ 0 <= side b c d.
Definition strict4 (a b c d : point) : Prop :=
  0 < side a b c /\ 0 < side a b d /\ 0 < side a c d /\ 0 < side b c d.
(* the same, counterclockwise (o = 1) or clockwise (o = -1) *)
Definition strictly_convex (o : Q) (ps : list point) : Prop :=
  match ps with
  | [a; b; c; d] => 0 < o * side a b c /\ 0 < o * side a b d /\ 0 < o * side a c d /\ 0 < o * side b c d
  | _ => False
  end.

Definition qsum (l : list Q) : Q := fold_right Qplus 0 l.

(* --- what one pixel of the source gives to the pixels of the destination --- *)
(* the area of a quadrilateral, by the formula of Gauss *)
Definition quad_area (o : Q) (ps : list point) : Q :=
  match ps with [a; b; c; d] => o * (side a b c + side a c d) / 2 | _ => 0 end.
(* w is the area of the part of the polygon that lies in the pixel (x, y), up to the tolerance of
   the computation: what lies within 5 * 2^-52 (as a value of [side]) of an edge may be missing *)
Definition tol : Q := 5 # 4503599627370496.
Definition weighs (o : Q) (ps : list point) (x y : Z) (w : Q) : Prop := exists A B,
  area (both (in_pixel x y) (inside o ps)) (inject_Z y - (1#2)) (inject_Z y + (1#2)) A /\
  area (both (in_pixel x y) (deeper tol o ps)) (inject_Z y - (1#2)) (inject_Z y + (1#2)) B /\
  B <= w /\ w <= A.
(* a polygon whose corners are all on an image of h lines and w columns *)
Definition in_grid (h w : nat) (ps : list point) : Prop :=
  Forall (fun p => -(1#2) <= fst p /\ fst p < inject_Z (Z.of_nat w) - (1#2) /\
                   -(1#2) <= snd p /\ snd p < inject_Z (Z.of_nat h) - (1#2)) ps.
Definition on_image (h w : nat) (x y : Z) : Prop := (0 <= x < Z.of_nat w /\ 0 <= y < Z.of_nat h)%Z.
(* The weights W(y, x) given by a projection to the pixels of an image.  A projection of which a
   part is not on the image, and whose corners would otherwise all be in one pixel, is counted as
   if it were entirely in this pixel. *)
Definition spread (o : Q) (ps : list point) (h w : nat) (W : Z * Z -> Q) : Prop :=
  (forall x y, on_image h w x y -> weighs o ps x y (W (y, x)))
  \/ (~ in_grid h w ps /\ exists x0 y0, on_image h w x0 y0 /\ W (y0, x0) == quad_area o ps /\
      forall x y, on_image h w x y -> (y, x) <> (y0, x0) -> W (y, x) == 0 /\ weighs o ps x y 0).
(* A pixel of the destination receives the value v times e, with the weight w: the sum r becomes
   r', the sum of weights k becomes k'.  Sums that are not finite remain so. *)
Definition gain (v : option Q) (e w : Q) (r r' : option Q) (k k' : Q) : Prop :=
  (w == 0 /\ r' = r /\ k' = k)
  \/ (k' == k + w /\ match v, r with
                     | Some v, Some r => exists q, r' = Some q /\ q == r + v * e * w
                     | _, _ => r' = None
                     end).

(* --- the whole image --- *)
(* the projection of the square of side f around the pixel (x, y) *)
Definition footprint (s2d : Q -> Q -> point) (f x y : Q) : list point :=
  [s2d (x - f / 2) (y - f / 2); s2d (x + f / 2) (y - f / 2); s2d (x + f / 2) (y + f / 2); s2d (x - f / 2) (y + f / 2)].
(* a quadrilateral made f times smaller around the mean of its corners *)
Definition shrunk (f : Q) (ps : list point) : list point :=
  match ps with
  | [a; b; c; d] =>
      let mx := (fst a + fst b + fst c + fst d) / 4 in
      let my := (snd a + snd b + snd c + snd d) / 4 in
      map (fun p => (mx + f * (fst p - mx), my + f * (snd p - my))) ps
  | _ => ps
  end.
Definition peq (p q : point) : Prop := fst p == fst q /\ snd p == snd q.
(* a map of the plane that does not tell equal numbers apart *)
Definition plane_map (s2d : Q -> Q -> point) : Prop :=
  forall x x' y y', x == x' -> y == y' -> peq (s2d x y) (s2d x' y').
(* the coordinates can be converted to integers *)
Definition moderate (p : point) : Prop :=
  - inject_Z (2 ^ 62) <= fst p /\ fst p <= inject_Z (2 ^ 62) /\ - inject_Z (2 ^ 62) <= snd p /\ snd p <= inject_Z (2 ^ 62).

(* The contributions to a pixel of the destination: the value of a pixel of the source, a factor,
   and a weight.  r is the sum of the values times factors times weights, unless one of the values
   is not finite; k is the sum of the weights. *)
Definition share (c : option Q * Q * Q) : Q :=
  let '(v, e, w) := c in match v with Some v => v * e * w | None => 0 end.
Definition weight (c : option Q * Q * Q) : Q := snd c.
Definition collects (cs : list (option Q * Q * Q)) (r : option Q) (k : Q) : Prop :=
  k == qsum (map weight cs) /\
  match r with
  | Some q => (forall e w, In (None, e, w) cs -> w == 0) /\ q == qsum (map share cs)
  | None => exists e w, In (None, e, w) cs
  end.
(* v is r divided by k, and is not finite if r is not, or if k is zero *)
Definition is_ratio (r : option Q) (k : Q) (v : option Q) : Prop :=
  match r, v with
  | Some q, Some v => ~ k == 0 /\ v * k == q
  | Some _, None => k == 0
  | None, Some _ => False
  | None, None => True
  end.
(* the pixels of an image of h lines and w columns, as (line, column) *)
Definition pixels (h w : nat) : list (nat * nat) := list_prod (seq 0 h) (seq 0 w).
