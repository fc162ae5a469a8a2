(* What the masks mean. *)
From Coq Require Import QArith.
From Verif Require Import Base ImageModel.
Local Open Scope nat_scope.

(* the corners of pixel (i, j), whose centre has integer coordinates *)
Definition corners_of (i j : nat) : list (Q * Q) :=
  let i := inject_Z (Z.of_nat i) in let j := inject_Z (Z.of_nat j) in
  [(i - (1 # 2), j - (1 # 2)); (i - (1 # 2), j + (1 # 2)); (i + (1 # 2), j - (1 # 2)); (i + (1 # 2), j + (1 # 2))]%Q.
(* those at distance r or less of (x, y) *)
Definition corners_in (r x y : Q) (i j : nat) : nat :=
  length (filter (fun c => Qle_bool ((fst c - x) * (fst c - x) + (snd c - y) * (snd c - y)) (r * r)) (corners_of i j)).
(* the image is defined by f *)
Definition image_is {A} (R : A -> A -> Prop) (d0 d1 : nat) (m : img A) (f : nat -> nat -> A) : Prop :=
  nr m = d0 /\ nc m = d1 /\ length (pix m) = d0 * d1 /\
  forall i j, i < d0 -> j < d1 -> exists a, nth_error (pix m) (i * d1 + j) = Some a /\ R a (f i j).
(* (x, y) is inside the rectangle of centre (px, py), of half sizes hw and hh, turned by the angle
   of cosine ca/k and sine sa/k; lengths are in units of 1/s *)
Definition in_box (s k px py hw hh ca sa : Z) (x y : Z) : Prop :=
  let dx := (s * x - px)%Z in let dy := (s * y - py)%Z in
  (Z.abs (dx * ca + dy * sa) <= hw * k /\ Z.abs (dy * ca - dx * sa) <= hh * k)%Z.
