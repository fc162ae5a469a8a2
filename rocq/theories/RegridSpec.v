(* What regridding by interpolation should do. *)
From Coq Require Import QArith Qabs.
From Verif Require Import Base ImageModel ImageSpec SplineSpec DrizSpec DrizSpec2 RegridModel.
Local Open Scope Q_scope.

(* i is the integer nearest to t, or one of two *)
Definition near (t : Q) (i : Z) : Prop := Qabs (t - inject_Z i) <= 1 # 2.
(* t is in the interval from i to i + 1 *)
Definition cell_of (t : Q) (i : Z) : Prop := inject_Z i <= t /\ t < inject_Z i + 1.
(* the part u from a to b *)
Definition mix (u a b : Q) : Q := (1 - u) * a + u * b.

(* The values of an image v at the position (x, y), where y counts lines.  None: not finite. *)
(* that of the nearest pixel, except in the first line and column *)
Definition nearest_value (v : img (option Q)) (x y : Q) (r : option Q) : Prop :=
  exists i j, near y i /\ near x j /\
    (((0 < i < Z.of_nat (nr v) /\ 0 < j < Z.of_nat (nc v))%Z /\ px v i j = Some r) \/
     (~ (0 < i < Z.of_nat (nr v) /\ 0 < j < Z.of_nat (nc v))%Z /\ r = None)).
(* bilinear between the four pixels around, def if there are not four *)
Definition linear_value (def : option Q) (v : img (option Q)) (x y : Q) (r : option Q) : Prop :=
  exists i j, cell_of y i /\ cell_of x j /\
    let among := (0 <= i /\ i + 1 < Z.of_nat (nr v) /\ 0 <= j /\ j + 1 < Z.of_nat (nc v))%Z in
    (among /\ exists a b c d q, px v i j = Some (Some a) /\ px v i (j + 1) = Some (Some b) /\
        px v (i + 1) j = Some (Some c) /\ px v (i + 1) (j + 1) = Some (Some d) /\ r = Some q /\
        q == mix (y - inject_Z i) (mix (x - inject_Z j) a b) (mix (x - inject_Z j) c d)) \/
    (among /\ (exists i' j', (i' = i \/ i' = i + 1)%Z /\ (j' = j \/ j' = j + 1)%Z /\ px v i' j' = Some None) /\ r = None) \/
    (~ among /\ r = def).
(* natural cubic splines through the sixteen pixels around: along the lines, then across; def if
   there are not sixteen *)
Definition cubic_value (def : option Q) (v : img (option Q)) (x y : Q) (r : option Q) : Prop :=
  exists i j, cell_of y i /\ cell_of x j /\
    let among := (1 <= i /\ i + 2 < Z.of_nat (nr v) /\ 1 <= j /\ j + 2 < Z.of_nat (nc v))%Z in
    let around k m := px v (i - 1 + Z.of_nat k) (j - 1 + Z.of_nat m) in
    (among /\ exists f p q, (forall k m, (k < 4)%nat -> (m < 4)%nat -> around k m = Some (Some (f k m))) /\
        (forall k, (k < 4)%nat -> natural_value 3 unit_node (f k) (x - inject_Z j + 1) (p k)) /\
        natural_value 3 unit_node p (y - inject_Z i + 1) q /\ r = Some q) \/
    (among /\ (exists k m, (k < 4)%nat /\ (m < 4)%nat /\ around k m = Some None) /\ r = None) \/
    (~ among /\ r = def).
Definition interpolated (m : method) : img (option Q) -> Q -> Q -> option Q -> Prop :=
  match m with Nearest => nearest_value | Linear => linear_value None | Cubic => cubic_value None end.
(* the image is large enough for the method *)
Definition enough (m : method) (v : img (option Q)) : Prop :=
  match m with Nearest => True | Linear => (1 <= nr v /\ 1 <= nc v)%nat | Cubic => (2 <= nr v /\ 2 <= nc v)%nat end.

(* where the pixel (x, y) of the destination is on the source: the mean of its four corners *)
Definition place (s2d : Q -> Q -> point) (x y : Z) : point :=
  let ps := footprint s2d 1 (inject_Z x) (inject_Z y) in (qsum (map fst ps) / 4, qsum (map snd ps) / 4).
Definition times (r : option Q) (k : Q) (r' : option Q) : Prop :=
  match r, r' with Some q, Some q' => q' == q * k | None, None => True | _, _ => False end.
(* each pixel of res is the value of v at its place times K *)
Definition resampled (m : method) (v : img (option Q)) (s2d : Q -> Q -> point) (K : Z -> Z -> Q) (h w : nat)
  (res : img (option Q)) : Prop :=
  sized h w res /\
  forall x y, on_image h w x y -> exists p r r', peq p (place s2d x y) /\ interpolated m v (fst p) (snd p) r /\
    px res y x = Some r' /\ times r (K x y) r'.
Definition all_moderate (s2d : Q -> Q -> point) (h w : nat) : Prop :=
  forall x y, on_image h w x y -> moderate (place s2d x y).
(* straight lines go to straight lines, at constant speed *)
Definition affine (s2d : Q -> Q -> point) : Prop := exists a b c d e f,
  forall x y, peq (s2d x y) (a * x + b * y + c, d * x + e * y + f).
