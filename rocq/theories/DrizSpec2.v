(* What regridding by drizzling should do to whole images. *)
From Coq Require Import QArith.
From Verif Require Import Base ImageModel ImageSpec DrizSpec.
Local Open Scope Q_scope.

(* The projection of the pixel p = (line, column): that of a square of side f; or that of the
   whole pixel, made smaller afterwards. *)
Definition drop (f : Q) (afterwards : bool) (s2d : Q -> Q -> point) (p : nat * nat) : list point :=
  let x := inject_Z (Z.of_nat (snd p)) in let y := inject_Z (Z.of_nat (fst p)) in
  if afterwards then shrunk f (footprint s2d 1 x y) else footprint s2d f x y.
(* all the projections are strictly convex, and have the same orientation *)
Definition regular_drops (o : Q) (f : Q) (afterwards : bool) (s2d : Q -> Q -> point) (h w : nat) : Prop :=
  forall p, In p (pixels h w) -> strictly_convex o (drop f afterwards s2d p) /\ Forall moderate (drop f afterwards s2d p).
Definition value (v : img (option Q)) (p : nat * nat) : option Q :=
  match px v (Z.of_nat (fst p)) (Z.of_nat (snd p)) with Some a => a | None => None end.
(* what the pixels of the source give to the pixel (x, y): the value, the fraction f^2 divided by
   the area of the projection, and the weight *)
Definition parts (v : img (option Q)) (o f : Q) (D : nat * nat -> list point) (W : nat * nat -> Z * Z -> Q) (x y : Z)
  : list (option Q * Q * Q) :=
  map (fun p => (value v p, f * f / quad_area o (D p), W p (y, x))) (pixels (nr v) (nc v)).
Definition sized {A} (h w : nat) (v : img A) : Prop := nr v = h /\ nc v = w /\ wf v.
(* res and wei are the images obtained with the weights W *)
Definition regridded (v : img (option Q)) (o f : Q) (D : nat * nat -> list point) (h w : nat)
  (W : nat * nat -> Z * Z -> Q) (res : img (option Q)) (wei : img Q) : Prop :=
  sized h w res /\ sized h w wei /\
  (forall p, In p (pixels (nr v) (nc v)) -> spread o (D p) h w (W p)) /\
  forall x y, on_image h w x y -> exists r a k,
    px res y x = Some a /\ px wei y x = Some k /\ collects (parts v o f D W x y) r k /\ is_ratio r k a.
(* the pixels (line, column) of an image *)
Definition zpixels (h w : nat) : list (Z * Z) := list_prod (ints 0 (Z.of_nat h)) (ints 0 (Z.of_nat w)).
(* the value of a pixel times its weight; nothing if the value is not finite *)
Definition weighted (res : img (option Q)) (wei : img Q) (p : Z * Z) : Q :=
  match px res (fst p) (snd p), px wei (fst p) (snd p) with Some (Some v), Some k => v * k | _, _ => 0 end.
Definition fin (v : option Q) : Q := match v with Some v => v | None => 0 end.
(* the affine map that agrees with s2d at the central pixel (cx, cy), at its right and above it *)
Definition tangent (s2d : Q -> Q -> point) (cx cy : Q) : Q -> Q -> point := fun x y =>
  let c := s2d cx cy in let u := s2d (cx + 1) cy in let v := s2d cx (cy + 1) in
  ((x - cx) * (fst u - fst c) + (y - cy) * (fst v - fst c) + fst c,
   (x - cx) * (snd u - snd c) + (y - cy) * (snd v - snd c) + snd c).
