(* What normalised coordinates are. *)
From Coq Require Import QArith.
From Verif Require Import Base.

(* the coordinates in degrees of the same point: by whole turns, or over the pole *)
Definition same_point (ra dec ra' dec' : Q) : Prop :=
  exists k m : Z,
    (ra' == ra + 360 * inject_Z k /\ dec' == dec + 360 * inject_Z m) \/
    (ra' == ra + 180 + 360 * inject_Z k /\ dec' == 180 - dec + 360 * inject_Z m).
Definition normal (ra dec : Q) : Prop := 0 <= ra /\ ra <= 360 /\ -(90) <= dec /\ dec <= 90.

(* cosine and sine of an angle in degrees, as far as their symmetries go, in any number system *)
Record angles (R : Type) := {
  opp : R -> R; mul : R -> R -> R; cosine : Q -> R; sine : Q -> R;
  opp_opp : forall a, opp (opp a) = a;
  mul_opp_l : forall a b, mul (opp a) b = opp (mul a b);
  mul_opp_r : forall a b, mul a (opp b) = opp (mul a b);
  cosine_eq : forall x y, x == y -> cosine x = cosine y;
  sine_eq : forall x y, x == y -> sine x = sine y;
  cosine_half : forall x, cosine (x + 180) = opp (cosine x);
  sine_half : forall x, sine (x + 180) = opp (sine x);
  cosine_even : forall x, cosine (- x) = cosine x;
  sine_odd : forall x, sine (- x) = opp (sine x) }.
(* the unit vector towards the point *)
Definition direction {R} (t : angles R) (ra dec : Q) : R * R * R :=
  (mul R t (cosine R t dec) (cosine R t ra), mul R t (cosine R t dec) (sine R t ra), sine R t dec).
