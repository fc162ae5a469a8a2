(* What translations, scalings and rotations of an image should do. *)
From Coq Require Import QArith Qabs.
From Verif Require Import Base ImageModel ImageSpec SplineSpec DrizSpec DrizSpec2 RegridSpec.
Local Open Scope Q_scope.

(* The value of a method of interpolation at a position (y, x), y counting lines, and def where it
   has too few pixels. *)
Inductive way := Bilinear | Bicubic.
Definition value_at (w : way) (def : option Q) (v : img (option Q)) (p : point) (r : option Q) : Prop :=
  match w with Bilinear => linear_value def v (snd p) (fst p) r | Bicubic => cubic_value def v (snd p) (fst p) r end.
(* r is the image whose pixel (y, x) is the value of v at the position T y x *)
Definition moved (w : way) (def : option Q) (v : img (option Q)) (T : Q -> Q -> point) (r : img (option Q)) : Prop :=
  sized (nr v) (nc v) r /\
  forall y x, on_image (nr v) (nc v) x y ->
    exists p q, peq p (T (inject_Z y) (inject_Z x)) /\ value_at w def v p q /\ px r y x = Some q.
Definition reachable (v : img (option Q)) (T : Q -> Q -> point) : Prop :=
  forall y x, on_image (nr v) (nc v) x y -> moderate (T (inject_Z y) (inject_Z x)).
(* no line or column is alone *)
Definition not_thin (v : img (option Q)) : Prop := nr v <> 1%nat /\ nc v <> 1%nat.

(* where the pixel at a position comes from *)
Definition mid (d : nat) : Q := inject_Z (Z.of_nat d / 2).
Definition slid (dy dx : Q) (y x : Q) : point := (y - dy, x - dx).
Definition shrunk (h w : nat) (f : Q) (y x : Q) : point := ((y - mid h) / f + mid h, (x - mid w) / f + mid w).
(* a rotation about the middle by the angle of cosine c and sine s *)
Definition turned (h w : nat) (c s : Q) (y x : Q) : point :=
  (c * (y - mid h) - s * (x - mid w) + mid h, s * (y - mid h) + c * (x - mid w) + mid w).

Definition all_finite (v : img (option Q)) : Prop := forall i j, on_image (nr v) (nc v) j i -> exists a, px v i j = Some (Some a).
Definition oqeq (a b : option Q) : Prop :=
  match a, b with Some a, Some b => a == b | None, None => True | _, _ => False end.
(* r shows at (y, x) the pixel (g y x) of v if that is not in the last line or column, def otherwise *)
Definition copies (v r : img (option Q)) (def : option Q) (g : Z -> Z -> Z * Z) : Prop :=
  sized (nr v) (nc v) r /\
  forall y x, on_image (nr v) (nc v) x y -> exists q, px r y x = Some q /\
    let (i, j) := g y x in
    if ((0 <=? i) && (i + 1 <? Z.of_nat (nr v)) && (0 <=? j) && (j + 1 <? Z.of_nat (nc v)))%Z%bool
    then exists a, px v i j = Some a /\ oqeq q a else q = def.

(* natural cubic splines through all the pixels of each line, then of each column *)
Definition bispline (v : img (option Q)) (dy dx : Q) (r : img (option Q)) : Prop :=
  sized (nr v) (nc v) r /\
  exists f g h : nat -> nat -> Q,
    (forall i j, (i < nr v)%nat -> (j < nc v)%nat ->
       px v (Z.of_nat i) (Z.of_nat j) = Some (Some (f i j)) /\
       natural_value (nc v - 1) unit_node (f i) (unit_node j - dx) (g i j) /\
       natural_value (nr v - 1) unit_node (fun k => g k j) (unit_node i - dy) (h i j) /\
       px r (Z.of_nat i) (Z.of_nat j) = Some (Some (h i j))).
