(* What the angles on the sky should be. *)
From Coq Require Import Reals.
From Verif Require Import Base SphModel.
Local Open Scope R_scope.

Record vec3 := V3 { vx : R; vy : R; vz : R }.
Definition dot (u v : vec3) : R := vx u * vx v + vy u * vy v + vz u * vz v.
Definition unit3 (u : vec3) : Prop := dot u u = 1.
(* the direction of longitude ra and latitude dec, in radians and in degrees *)
Definition direction (ra dec : R) : vec3 := V3 (cos dec * cos ra) (cos dec * sin ra) (sin dec).
Definition radians (x : R) : R := x * PI / 180.
Definition on_sky (ra dec : R) : vec3 := direction (radians ra) (radians dec).
(* a is the angle between two directions *)
Definition angle_of (u v : vec3) (a : R) : Prop := 0 <= a <= PI /\ cos a = dot u v.
(* rotation around the x axis *)
Definition turn (e : R) (u : vec3) : vec3 := V3 (vx u) (cos e * vy u - sin e * vz u) (cos e * vz u + sin e * vy u).
Definition arcsec (a : R) : R := 3600 * (a * 180 / PI).
(* an array of the right size *)
Definition whole {A} (a : arr A) : Prop := List.length (data a) = nprod (dims a).
(* the area of a flat triangle of the given sides, by the polynomial of Heron *)
Definition flat_area (a b c s : R) : Prop := 0 <= s /\
  16 * (s * s) = 2 * (a * a) * (b * b) + 2 * (b * b) * (c * c) + 2 * (c * c) * (a * a) - a * a * (a * a) - b * b * (b * b) - c * c * (c * c).
Definition total (l : list R) : R := fold_right Rplus 0 l.
