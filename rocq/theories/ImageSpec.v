(* What a user expects of image operations. *)
From Verif Require Import Base ImageModel.

(* data and dimensions agree (C06) *)
Definition wf {A} (v : img A) : Prop := length (pix v) = nr v * nc v.
(* the pixel at (x,y); None outside the image *)
Definition px {A} (v : img A) (x y : Z) : option A :=
  if ((0 <=? x) && (x <? Z.of_nat (nr v)) && (0 <=? y) && (y <? Z.of_nat (nc v)))%Z
  then nth_error (pix v) (Z.to_nat x * nc v + Z.to_nat y) else None.
(* the pixel, or def outside the image *)
Definition px_or {A} (def : A) (v : img A) (x y : Z) : option A :=
  match px v x y with Some a => Some a | None => Some def end.
(* v is the n by m image whose pixels are given by f *)
Definition shows {A} (v : img A) (n m : nat) (f : Z -> Z -> option A) : Prop :=
  nr v = n /\ nc v = m /\ wf v /\
  forall x y, (0 <= x < Z.of_nat n)%Z -> (0 <= y < Z.of_nat m)%Z -> px v x y = f x y.
(* the dimensions are 64-bit numbers and the image fits in memory (the size is at most the
   number of 8 byte elements of the address space) *)
Definition fits (n m : nat) : Prop :=
  (Z.of_nat n < two64 /\ Z.of_nat m < two64 /\ Z.of_nat n * Z.of_nat m <= 1152921504606846975)%Z.
(* the integers from a to b-1 *)
Definition ints (a b : Z) : list Z := map (fun k => a + Z.of_nat k)%Z (seq 0 (Z.to_nat (b - a))).
(* the pixels of an n by m image lying in the region r0..r2, r1..r3 (inclusive), row by row *)
Definition overlap (n m : nat) (r0 r1 r2 r3 : Z) : list (Z * Z) :=
  list_prod (ints (Z.max 0 r0) (Z.min (Z.of_nat n) (r2 + 1))) (ints (Z.max 0 r1) (Z.min (Z.of_nat m) (r3 + 1))).

(* discrete convolution with zero padding: the sum over the kernel, row by row, of
   map(x - kx + hx, y - ky + hy) * kernel(kx, ky), where hx, hy is the centre of the kernel *)
Section Conv.
Context {R : Type} (rO : R) (radd rmul : R -> R -> R).
Definition px0 (v : img R) (x y : Z) : R := match px v x y with Some a => a | None => rO end.
Definition kernel_pixels (k : img R) : list (Z * Z) := list_prod (ints 0 (Z.of_nat (nr k))) (ints 0 (Z.of_nat (nc k))).
Definition conv (m k : img R) (x y : Z) : R :=
  fold_left (fun s p => radd s (rmul (px0 m (x - fst p + Z.of_nat (nr k) / 2)
                                            (y - snd p + Z.of_nat (nc k) / 2)) (px0 k (fst p) (snd p))))%Z
    (kernel_pixels k) rO.
End Conv.
