(* What the images of point spread functions should be. *)
From Coq Require Import Ascii String QArith Qabs.
From Verif Require Import Base ImageModel ImageSpec StrSpec KeySpec DrizSpec2 RegridSpec.
Local Open Scope list_scope.

Definition txt (s : string) : list ascii := list_ascii_of_string s.
(* the comma separated fields of a model: its name and its arguments *)
Definition fields (model : list ascii) (ps : list (list ascii)) : Prop :=
  exists ws, cut_at [","%char] model ws /\ Forall2 stripped ws ps.
(* the number given by a field *)
Definition given (num : list ascii -> option Q) (s : list ascii) (q : Q) : Prop := s <> [] /\ num s = Some q.

Local Open Scope Q_scope.
Definition dist2 (x0 y0 : Q) (x y : Z) : Q := (inject_Z x - x0) ^ 2 + (inject_Z y - y0) ^ 2.
(* r is the n by m image with pixels f *)
Definition painted (n m : nat) (r : img (option Q)) (P : Z -> Z -> option Q -> Prop) : Prop :=
  sized n m r /\ forall x y, (0 <= x < Z.of_nat n)%Z -> (0 <= y < Z.of_nat m)%Z -> exists q, px r x y = Some q /\ P x y q.
(* e is the exponential of the number -u/(2 w^2) *)
Definition bell_of (expq : Q -> Q) (u w e : Q) : Prop := exists v, v * (2 * w ^ 2) == - u /\ e = expq v.

(* (a, b) is the first pixel, in the order of the lines, of the largest value *)
Definition peak (t : img (option Q)) (a b : Z) : Prop :=
  exists v, px t a b = Some (Some v) /\
    forall i j w, px t i j = Some (Some w) -> w <= v /\ ((i < a \/ i = a /\ j < b)%Z -> w < v).
(* the number of lines and columns on every side of (a, b) *)
Definition room (t : img (option Q)) (a b e : Z) : Prop :=
  (e <= a /\ e <= b /\ a + e < Z.of_nat (nr t) /\ b + e < Z.of_nat (nc t) /\
   (e = a \/ e = b \/ a + e + 1 = Z.of_nat (nr t) \/ b + e + 1 = Z.of_nat (nc t)))%Z.
(* the four pixels at the distance k of (a, b) in its line and its column are zero *)
Definition zero_at (t : img (option Q)) (a b : Z) : Prop := exists v, px t a b = Some (Some v) /\ v == 0.
Definition cross_zero (t : img (option Q)) (a b k : Z) : Prop :=
  zero_at t (a - k) b /\ zero_at t (a + k) b /\ zero_at t a (b - k) /\ zero_at t a (b + k).
(* the half size kept: up to the first such cross, or up to the closest side *)
Definition kept (t : img (option Q)) (a b h : Z) : Prop := exists e, room t a b e /\
  (((1 <= h <= e)%Z /\ cross_zero t a b h /\ forall k, (1 <= k < h)%Z -> ~ cross_zero t a b k) \/
   (h = e /\ forall k, (1 <= k <= e)%Z -> ~ cross_zero t a b k)).
(* the value at the offset (u, v) from (a, b): bilinear if the four pixels around are kept, else 0 *)
Definition stamp (t : img (option Q)) (a b h : Z) (u v : Q) (q : option Q) : Prop :=
  exists i j, cell_of u i /\ cell_of v j /\
    (((- h <= i < h)%Z /\ (- h <= j < h)%Z /\ exists p00 p01 p10 p11 r,
        px t (a + i) (b + j) = Some (Some p00) /\ px t (a + i) (b + j + 1) = Some (Some p01) /\
        px t (a + i + 1) (b + j) = Some (Some p10) /\ px t (a + i + 1) (b + j + 1) = Some (Some p11) /\
        q = Some r /\ r == mix (u - inject_Z i) (mix (v - inject_Z j) p00 p01) (mix (v - inject_Z j) p10 p11)) \/
     (~ ((- h <= i < h)%Z /\ (- h <= j < h)%Z) /\ q = Some 0)).
