(* What the extraction of cutouts should do. *)
From Coq Require Import QArith Qabs.
From Verif Require Import Base ImageModel ImageSpec RegridSpec.
Local Open Scope Z_scope.

(* One image of the set: its pixels, and the pixel in which the source is *)
Record view := View { seen : img (option Q); at_y : Z; at_x : Z }.
(* the square of half size hs around the source has a pixel in common with the image *)
Definition covers (hs : Z) (v : view) : Prop :=
  exists y x, Z.abs (y - at_y v) <= hs /\ Z.abs (x - at_x v) <= hs /\
    0 <= y < Z.of_nat (nr (seen v)) /\ 0 <= x < Z.of_nat (nc (seen v)).
(* pixel (a, b) of that square; def outside of the image *)
Definition around (def : option Q) (hs : Z) (v : view) (a b : Z) : option Q :=
  match px (seen v) (at_y v + a - hs) (at_x v + b - hs) with Some q => q | None => def end.
(* the first finite value of a list *)
Fixpoint first_finite (l : list (option Q)) : option Q :=
  match l with [] => None | Some q :: _ => Some q | None :: t => first_finite t end.
(* r: the elements of a list with a property, in their order *)
Inductive kept {A} (P : A -> Prop) : list A -> list A -> Prop :=
  | kept_nil : kept P [] []
  | kept_in v l r : P v -> kept P l r -> kept P (v :: l) (v :: r)
  | kept_out v l r : ~ P v -> kept P l r -> kept P (v :: l) r.
Definition square (hs : Z) (c : img (option Q)) (f : Z -> Z -> option Q) : Prop :=
  let n := Z.to_nat (2 * hs + 1) in shows c n n (fun a b => Some (f a b)).
