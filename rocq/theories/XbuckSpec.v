(* What the bucket algorithm is supposed to compute: see also is_nearest and candidates. *)
From Verif Require Import Base XmatchModel XmatchSpec XbuckModel.
Open Scope Z_scope.

(* sqrtf is a square root, up to 10 percent and one unit; this holds for the rounded root of
   the C library and, for the examples, for Z.sqrt_up *)
Definition sqrt_ok (sqrtf : Z -> Z) : Prop := forall x, 0 <= x ->
  0 <= sqrtf x /\ 100 * x <= 121 * (sqrtf x * sqrtf x) /\
  (sqrtf x = 0 \/ 100 * ((sqrtf x - 1) * (sqrtf x - 1)) <= 121 * x).
(* two catalogues with as many x as y coordinates, and at least one source *)
Definition catalogue (ra de : list Z) : Prop := length ra = length de /\ ra <> [].
(* the sources of the catalogue do not all have the same x, or the same y *)
Definition extended (l : list Z) : Prop := exists a b, In a l /\ In b l /\ a < b.
(* a neighbour at squared distance d is nearer than (max(nx, ny) - 1.5) buckets *)
Definition within_reach (f : field) (d : Z) : Prop :=
  4 * d <= ((2 * Z.of_nat (Nat.max (f_nx f) (f_ny f)) - 3) * f_c f) * ((2 * Z.of_nat (Nat.max (f_nx f) (f_ny f)) - 3) * f_c f).
