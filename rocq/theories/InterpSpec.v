(* Independent vocabulary for interpolation. *)
From Coq Require Import QArith.
From Verif Require Import Base.
Local Open Scope nat_scope.

(* consecutive abscissae increase *)
Definition increasing (x : list Q) : Prop :=
  forall i a b, nth_error x i = Some a -> nth_error x (i + 1) = Some b -> (a < b)%Q.
Definition nondecreasing (x : list Q) : Prop :=
  forall i a b, nth_error x i = Some a -> nth_error x (i + 1) = Some b -> (a <= b)%Q.

(* (t, r) is on the line through (xa, ya) and (xb, yb) *)
Definition on_line (xa ya xb yb t r : Q) : Prop := ((r - ya) * (xb - xa) == (yb - ya) * (t - xa))%Q.

(* segment k is the one to use at t: the one that contains t, or the first / last one *)
Definition segment_for (x : list Q) (k : nat) (t : Q) : Prop :=
  exists a b, nth_error x k = Some a /\ nth_error x (k + 1) = Some b /\
    (k = 0 \/ (a <= t)%Q) /\ (k + 2 = length x \/ (t < b)%Q).

(* the value at t of the piecewise linear function through the nodes *)
Definition piecewise (x y : list Q) (t r : Q) : Prop :=
  exists k xa xb ya yb, segment_for x k t /\
    nth_error x k = Some xa /\ nth_error x (k + 1) = Some xb /\
    nth_error y k = Some ya /\ nth_error y (k + 1) = Some yb /\ on_line xa ya xb yb t r.
