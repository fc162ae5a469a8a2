(* What the generators and clamping must produce, in terms of the mathematical values. *)
From Coq Require Import QArith.
From Verif Require Import Base GenModel.
Local Open Scope nat_scope.

(* The number an argument stands for. *)
Definition val (a : scalar) : Q := match a with SF q => q | SI z | SU z => inject_Z z end.

(* Integer arguments are values of their type. *)
Definition typed (a : scalar) : Prop :=
  match a with
  | SF _ => True
  | SI z => (- two63 <= z < two63)%Z
  | SU z => (0 <= z < two64)%Z
  end.

(* b - a can be computed in the common type of the arguments: always for doubles, without overflow
   for signed integers, and not negative as soon as one argument is unsigned. *)
Definition diff_fits (a b : scalar) : Prop :=
  match a, b with
  | SF _, _ | _, SF _ => True
  | SI x, SI y => (- two63 <= y - x < two63)%Z
  | SI x, SU y | SU x, SI y | SU x, SU y => (0 <= y - x < two64)%Z
  end.

(* l lists the n values a, a + (b-a)/(n-1), ..., b *)
Definition evenly (a b : Q) (n : nat) (l : list Q) : Prop :=
  length l = n /\
  forall k, k < n -> exists x, nth_error l k = Some x /\
    (x == a + inject_Z (Z.of_nat k) * ((b - a) / inject_Z (Z.of_nat n - 1)))%Q.

(* All three arguments have the same type. *)
Definition same_kind (a b c : scalar) : Prop := kind_of a = kind_of b /\ kind_of b = kind_of c.
(* Integer arguments whose differences rgen_step can compute: no signed overflow, and no negative
   value converted to an unsigned type. *)
Definition step_fits (a b s : scalar) : Prop :=
  match a, b with
  | SI x, SI y => (Z.abs (y - x) < two63)%Z /\ (kind_of s = KU -> (0 <= x /\ 0 <= y)%Z)
  | SI x, SU _ | SU _, SI x => (0 <= x)%Z
  | _, _ => True
  end.

(* m steps of size s are taken from a towards b, then one last step reaches b exactly *)
Definition stepped (a b s : Q) (m : nat) (l : list Q) : Prop :=
  length l = m + 2 /\
  (forall k, k <= m -> exists x, nth_error l k = Some x /\
     (x == a + inject_Z (Z.of_nat k) * (if Qle_bool a b then s else - s))%Q) /\
  exists x, nth_error l (m + 1) = Some x /\ (x == b)%Q.

Definition is_float (a : scalar) : bool := match a with SF _ => true | _ => false end.

(* r is t brought into [mi,ma]; for mi > ma the lower bound has priority *)
Definition clamped (t mi ma r : scalar) : Prop :=
  ((val t < val mi)%Q -> (val r == val mi)%Q) /\
  (~ (val t < val mi)%Q -> (val ma < val t)%Q -> (val r == val ma)%Q) /\
  (~ (val t < val mi)%Q -> ~ (val ma < val t)%Q -> (val r == val t)%Q).
