(* What stacking is supposed to do. *)
From Coq Require Import QArith Qround Qabs.
From Verif Require Import Base GenModel QstackModel.
Local Open Scope Z_scope.

(* c is the integer closest to x, the larger one (in absolute value) at equal distances *)
Definition closest_integer (x : Q) (c : Z) : Prop :=
  (Qabs (x - inject_Z c) <= 1 # 2)%Q /\
  ((Qabs (x - inject_Z c) == 1 # 2)%Q -> (Qabs x < Qabs (inject_Z c))%Q).
(* x is half way between two integers *)
Definition half_way (x : Q) : Prop := exists k, (x == inject_Z k + (1 # 2))%Q.
(* half way positions are harmless as long as the window does not contain 0 *)
Definition regular (h : nat) (x : Q) : Prop :=
  half_way x -> (inject_Z (Z.of_nat h) < x)%Q \/ (x < - inject_Z (Z.of_nat h))%Q.
(* no overflow of the positions *)
Definition moderate (h : nat) (x : Q) : Prop :=
  (Qabs x + inject_Z (Z.of_nat h) < inject_Z (2 ^ 62))%Q.

Section Spec.
Context {A : Type}.
Local Notation pixel := (option A).
Implicit Types im : image A.

(* the image continued with bad pixels *)
Definition pixel_at im (X Y : Z) : pixel :=
  if (1 <=? X) && (X <=? width im) && (1 <=? Y) && (Y <=? height im) then pix im X Y else None.
(* c-h, ..., c+h *)
Definition span (h : nat) (c : Z) : list Z := map (fun k => c - Z.of_nat h + Z.of_nat k) (seq 0 (2 * h + 1)).
(* the square of 2h+1 pixels around pixel (cx, cy), row by row *)
Definition window (h : nat) im (cx cy : Z) : list pixel :=
  flat_map (fun Y => map (fun X => pixel_at im X Y) (span h cx)) (span h cy).
(* the central pixel of source i *)
Definition centre im (i : nat) (cx cy : Z) : Prop :=
  exists x y, nth_error (px im) i = Some x /\ nth_error (py im) i = Some y /\ closest_integer x cx /\ closest_integer y cy.
(* the window touches the image, not counting its last column and its last row *)
Definition touches (h : nat) im (cx cy : Z) : bool :=
  (1 <=? cx + Z.of_nat h) && (cx - Z.of_nat h <? width im) && (1 <=? cy + Z.of_nat h) && (cy - Z.of_nat h <? height im).
(* the positions given for one image *)
Definition good_image (h nsrc : nat) im : Prop :=
  1 <= width im /\ 1 <= height im /\ length (px im) = nsrc /\ length (py im) = nsrc /\
  Forall (fun x => regular h x /\ moderate h x) (px im) /\ Forall (fun y => regular h y /\ moderate h y) (py im).

(* the first of the two pixels that is finite *)
Definition first_good (a b : pixel) : pixel := match a with Some _ => a | None => b end.
Fixpoint overlay (l : list (list pixel)) : list pixel :=
  match l with
  | [] => []
  | [c] => c
  | c :: l => map (fun '(a, b) => first_good a b) (combine c (overlay l))
  end.
(* the cutout of source i on an image, when there is one that may be used *)
Definition sourcecut (h : nat) (keep_nan : bool) im (i : nat) : option (list pixel) :=
  match nth_error (px im) i, nth_error (py im) i with
  | Some x, Some y =>
      let w := window h im (qround x) (qround y) in
      if touches h im (qround x) (qround y) && (keep_nan || forallb (fun p => negb (bad p)) w) then Some w else None
  | _, _ => None
  end.
Definition opt_list {B} (o : option B) : list B := match o with Some b => [b] | None => [] end.
Definition isSome {B} (o : option B) : bool := match o with Some _ => true | None => false end.
(* all the cutouts of source i, in the order of the images *)
Definition sourcecuts (h : nat) (keep_nan : bool) (imgs : list (image A)) (i : nat) : list (list pixel) :=
  flat_map (fun im => opt_list (sourcecut h keep_nan im i)) imgs.
(* image number k is the first one with a cutout of source i *)
Definition first_on (h : nat) (keep_nan : bool) (imgs : list (image A)) (k i : nat) : bool :=
  match nth_error imgs k with
  | Some im => isSome (sourcecut h keep_nan im i) && negb (existsb (fun im => isSome (sourcecut h keep_nan im i)) (firstn k imgs))
  | None => false
  end.
(* the sources found: (image, source), in order *)
Definition found_pairs (h : nat) (keep_nan : bool) (imgs : list (image A)) (nsrc : nat) : list (nat * nat) :=
  flat_map (fun k => map (fun i => (k, i)) (filter (first_on h keep_nan imgs k) (seq 0 nsrc))) (seq 0 (length imgs)).
(* offset of source i from the centre of its pixel on image k *)
Definition offset_x (imgs : list (image A)) (k i : nat) : list Q :=
  match nth_error imgs k with Some im => map offset (opt_list (nth_error (px im) i)) | None => [] end.
Definition offset_y (imgs : list (image A)) (k i : nat) : list Q :=
  match nth_error imgs k with Some im => map offset (opt_list (nth_error (py im) i)) | None => [] end.
End Spec.

(* the window lies on the image, not counting its last column and its last row *)
Definition inside {A} (h : nat) (im : image A) (cx cy : Z) : bool :=
  (1 <=? cx - Z.of_nat h) && (cx + Z.of_nat h <? width im) && (1 <=? cy - Z.of_nat h) && (cy + Z.of_nat h <? height im).
(* the image of the weights *)
Definition weight_image {A} (im : image A) (wpix : Z -> Z -> option A) : image A :=
  Image (width im) (height im) wpix (px im) (py im).
(* the cutouts of source i on the image and on that of the weights, when they may be used *)
Definition pair_of_cuts {A} (h : nat) (keep_nan : bool) (im : image A) (wpix : Z -> Z -> option A) (i : nat)
  : option (list (option A) * list (option A)) :=
  match nth_error (px im) i, nth_error (py im) i with
  | Some x, Some y =>
      let w := window h im (qround x) (qround y) in
      let v := window h (weight_image im wpix) (qround x) (qround y) in
      if inside h im (qround x) (qround y) && (keep_nan || (forallb (fun p => negb (bad p)) w && forallb (fun p => negb (bad p)) v))
      then Some (w, v) else None
  | _, _ => None
  end.
Definition weighted {A} (h : nat) (keep_nan : bool) (im : image A) (wpix : Z -> Z -> option A) (nsrc : nat) : list nat :=
  filter (fun i => isSome (pair_of_cuts h keep_nan im wpix i)) (seq 0 nsrc).
(* the first finite pixel of a list *)
Definition first_finite {A} (l : list (option A)) : option A := fold_right first_good None l.
