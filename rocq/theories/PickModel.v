(* Cutouts of the sources of an image.  Source: include/vif/astro/astro.hpp 1244-1275 (pick_sources),
   for a half size that is not negative (the code says that it may not compile; it is modelled as it
   is written).  Coordinates are exact rationals, infinite or NaN; pixels are of any type with a test
   of being finite.  Images and cubes are those of BootModel. *)
From Coq Require Import QArith Qround.
From Verif Require Import Base.
From Verif Require Import BootModel.
Local Open Scope nat_scope.

Inductive coord := At (q : Q) | Infinite | NotANumber.
Definition q_of (n : nat) : Q := inject_Z (Z.of_nat n).
(* x[i]-hsize < 1 || x[i]+hsize >= width; an infinite one is beyond one of the two limits *)
Definition outside (x : coord) (hsize width : nat) : bool :=
  match x with
  | At q => negb (Qle_bool 1 (q - q_of hsize)) || Qle_bool (q_of width) (q + q_of hsize)
  | Infinite => true
  | NotANumber => false
  end.
(* uint_t ix = round(x[i]): undefined for what is not a number; only used for numbers above 1 *)
Definition to_pixel (x : coord) : outcome nat :=
  match x with At q => Ok (Z.to_nat (Qfloor (q + (1 # 2)))) | _ => UB end.
(* img((ix-hsize)-_-(ix+hsize), (iy-hsize)-_-(iy+hsize)).concretise() *)
Definition cut {A} (im : img A) (ix iy hsize : nat) : outcome (img A) :=
  _ <- check (ix + hsize <? m1 im) ;; _ <- check (iy + hsize <? m2 im) ;;
  let n := 2 * hsize + 1 in
  l <- omapl (fun k => oget (pix im) ((ix - hsize + k / n) * m2 im + (iy - hsize + k mod n))) (seq 0 (n * n)) ;;
  Ok (mk_img n n l).
Section Pixels.
Context {A : Type}.
Variable finite : A -> bool.
(* 1256-1274 *)
Definition pick_one (im : img A) (x y : list coord) (hsize : nat) (st : cube A * list nat) (i : nat) : outcome (cube A * list nat) :=
  xi <- oget x i ;;
  if outside xi hsize (m1 im) then Ok st
  else
    _ <- check (i <? length y) ;; yi <- oget y i ;;
    if outside yi hsize (m2 im) then Ok st
    else
      ix <- to_pixel xi ;; iy <- to_pixel yi ;; c <- cut im ix iy hsize ;;
      if negb (length (filter (fun p => negb (finite p)) (pix c)) =? 0) then Ok st
      else b <- push_back (fst st) c ;; Ok (b, snd st ++ [i]).
Definition pick_sources (im : img A) (x y : list coord) (hsize : nat) (b : cube A) (ids : list nat) : outcome (cube A * list nat) :=
  ofold (pick_one im x y hsize) (seq 0 (length x)) (b, ids).
End Pixels.
