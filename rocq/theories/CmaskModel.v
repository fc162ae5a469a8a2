(* Circular masks, radial profiles and masks of DS9 regions.
   Sources: include/vif/astro/image.hpp 358-403, include/vif/astro/ds9.hpp 247-289.
   Arithmetic is exact.  Conversions of floating point numbers to unsigned integers are undefined
   out of the range of the integers. *)
From Coq Require Import QArith Qround.
From Verif Require Import Base IndexModel VecModel ImageModel HullModel.
Local Open Scope nat_scope.

Definition qlt (a b : Q) : bool := negb (Qle_bool b a).
Definition to_uint (z : Z) : outcome nat := if ((0 <=? z) && (z <? 2 ^ 64))%Z then Ok (Z.to_nat z) else UB.
(* 365-366: floor(v) > 0 ? floor(v) : 0, converted *)
Definition low_bound (v : Q) : outcome nat := let f := Qfloor v in if (0 <? f)%Z then to_uint f else Ok 0.
(* 367-368: ceil(v) < d-1 ? ceil(v) : d-1; d-1 wraps around *)
Definition high_bound (v : Q) (d : nat) : outcome nat :=
  let c := Qceiling v in let l := ((Z.of_nat d - 1) mod 2 ^ 64)%Z in
  if (c <? l)%Z then to_uint c else Ok (Z.to_nat l).
Definition one (b : bool) : Q := if b then 1%Q else 0%Q.
Definition half : Q := (1 # 2)%Q.
(* 373-378; radius is already squared *)
Definition coverage (r2 x y : Q) (ix iy : nat) : Q :=
  let i := inject_Z (Z.of_nat ix) in let j := inject_Z (Z.of_nat iy) in
  let sqr v := (v * v)%Q in
  ((1 # 4) * (one (Qle_bool (sqr (i - half - x) + sqr (j - half - y)) r2) +
              one (Qle_bool (sqr (i + half - x) + sqr (j - half - y)) r2) +
              one (Qle_bool (sqr (i + half - x) + sqr (j + half - y)) r2) +
              one (Qle_bool (sqr (i - half - x) + sqr (j + half - y)) r2)))%Q.
(* 358-383 *)
Definition circular_mask (d0 d1 : nat) (radius x y : Q) : outcome (img Q) :=
  m <- filled 0%Q d0 d1 ;;
  _ <- check (Qle_bool 0 radius) ;;
  if qlt 0 (x + radius) && qlt 0 (y + radius) then
    x0 <- low_bound (x - radius) ;; y0 <- low_bound (y - radius) ;;
    x1 <- high_bound (x + radius) d0 ;; y1 <- high_bound (y + radius) d1 ;;
    d <- ofold (fun d '(ix, iy) => pset d1 d ix iy (coverage (radius * radius) x y ix iy))
           (list_prod (seq x0 (x1 + 1 - x0)) (seq y0 (y1 + 1 - y0))) (pix m) ;;
    Ok (Img d0 d1 d)
  else Ok m.

(* 385-387 *)
Definition circular_mask_mid (d0 d1 : nat) (radius : Q) : outcome (img Q) :=
  circular_mask d0 d1 radius (inject_Z (Z.of_nat d0) / 2) (inject_Z (Z.of_nat d1) / 2).

(* 389-403; the masks have the dimensions of the image.  0/0 is None *)
Definition ratio (a b : Q) : option Q := if Qeq_bool b 0 then None else Some (a / b)%Q.
Definition radial_profile (v : img Q) (npix : nat) : outcome (list (option Q)) :=
  let hsx := nr v / 2 in let hsy := nc v / 2 in
  _ <- check (0 <? npix) ;;
  _ <- check (hsx <? nr v) ;; _ <- check (hsy <? nc v) ;;
  c <- pget v hsx hsy ;;
  r <- omapl (fun i =>
         a <- circular_mask (nr v) (nc v) (inject_Z (Z.of_nat hsx)) (inject_Z (Z.of_nat hsy)) (inject_Z (Z.of_nat i)) ;;
         b <- circular_mask (nr v) (nc v) (inject_Z (Z.of_nat hsx)) (inject_Z (Z.of_nat hsy)) (inject_Z (Z.of_nat i - 1)) ;;
         let mask := map (fun '(p, q) => (p * (1 - q))%Q) (combine (pix a) (pix b)) in
         Ok (ratio (fold_left Qplus (map (fun '(p, q) => (p * q)%Q) (combine mask (pix v))) 0%Q) (fold_left Qplus mask 0%Q)))
       (seq 1 (npix - 1)) ;;
  Ok (Some c :: r).

(* ---- ds9.hpp 251-252: circle with params = {px, py, rad} ---- *)
Definition mask_circle (px py rad : Q) (mask : img bool) : outcome (img bool) :=
  _ <- check (0 <? nr mask * nc mask) ;;
  m <- circular_mask (nr mask) (nc mask) rad py px ;;
  Ok (Img (nr mask) (nc mask) (map (fun '(b, c) => b || qlt half c) (combine (pix mask) (pix m)))).

(* ---- 253-279: box with params = {px, py, 2*hw, 2*hh, angle}.  Lengths are integers in
   units of 1/s pixel, ca and sa integers in units of 1/k, so that the corners are integers in
   units of 1/(s*k) pixel ---- *)
Definition zmin (l : list Z) : Z := fold_right Z.min (hd 0%Z l) l.
Definition zmax (l : list Z) : Z := fold_right Z.max (hd 0%Z l) l.
Definition box_x (k px hw hh ca sa : Z) : list Z :=
  map (fun '(xo, yo) => xo * ca - yo * sa + px * k)%Z [(hw, hh); (hw, - hh); (- hw, - hh); (- hw, hh)]%Z.
Definition box_y (k py hw hh ca sa : Z) : list Z :=
  map (fun '(xo, yo) => yo * ca + xo * sa + py * k)%Z [(hw, hh); (hw, - hh); (- hw, - hh); (- hw, hh)]%Z.
(* floor and ceil of a number in units of 1/u *)
Definition ufloor (u z : Z) : Z := (z / u)%Z.
Definition uceil (u z : Z) : Z := (- (- z / u))%Z.
(* conversion of an integral floating point number to int_t *)
Definition to_int (z : Z) : outcome Z := if ((- 2 ^ 63 <=? z) && (z <? 2 ^ 63))%Z then Ok z else UB.
(* the integers from a to b *)
Definition zupto (a b : Z) : list Z := map (fun i => a + Z.of_nat i)%Z (seq 0 (Z.to_nat (b - a + 1))).
Definition mask_box (std_sort : list nat -> list nat) (eps s k px py hw hh ca sa : Z) (mask : img bool) : outcome (img bool) :=
  _ <- check (0 <? nr mask * nc mask) ;;
  let u := (s * k)%Z in
  let xr := box_x k px hw hh ca sa in let yr := box_y k py hw hh ca sa in
  x0 <- to_int (ufloor u (zmin xr)) ;; x1 <- to_int (uceil u (zmax xr)) ;;
  y0 <- to_int (ufloor u (zmin yr)) ;; y1 <- to_int (uceil u (zmax yr)) ;;
  let d0 := Z.of_nat (nr mask) in let d1 := Z.of_nat (nc mask) in
  if ((x1 <? 0) || (y1 <? 0) || (d1 - 1 <? x0) || (d0 - 1 <? y0))%Z then Ok mask
  else
    let x0 := Z.max x0 0 in let y0 := Z.max y0 0 in
    let x1 := Z.min x1 (d1 - 1) in let y1 := Z.min y1 (d0 - 1) in
    h <- build_convex_hull std_sort yr xr ;;
    d <- ofold (fun (d : list bool) '(iy, ix) =>
           b <- oget d (Z.to_nat iy * nc mask + Z.to_nat ix) ;;
           c <- (if b then Ok true else in_convex_hull eps (u * iy)%Z (u * ix)%Z h) ;;
           oset d (Z.to_nat iy * nc mask + Z.to_nat ix) c)
         (list_prod (zupto y0 y1) (zupto x0 x1)) (pix mask) ;;
    Ok (Img (nr mask) (nc mask) d).
