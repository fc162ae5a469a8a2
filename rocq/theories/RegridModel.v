(* Regridding of an image by interpolation.  Source: include/vif/astro/image.hpp 1805-1826,
   1839-1841 and 1862-2008.

   Simplifications.  Coordinates are exact rationals, hence finite.  A pixel value is [option Q],
   where None stands for every value that is not finite.  astro::xy2ad followed by astro::ad2xy is
   a parameter, a map from the pixel coordinates of the destination to those of the source (counted
   from 0); the square roots of 1912 are a parameter, the area [larea].  Progress bars are left
   out. *)
From Coq Require Import QArith Qabs Qround.
From Verif Require Import Base ImageModel GenModel DrizModel.
From Verif Require SplineModel BilinModel.
Local Open Scope nat_scope.

(* imgs.safe(i,j): the flat index is computed modulo 2^64 *)
Definition at_pixel (v : img (option Q)) (i j : Z) : outcome (option Q) :=
  let f := wrap64 (i * Z.of_nat (nc v) + j) in
  if (f <? Z.of_nat (length (pix v)))%Z then oget (pix v) (Z.to_nat f) else UB.

(* 1805-1814; None: flx is not finite, or is not set *)
Definition regrid_nearest (imgs : img (option Q)) (xps yps : Q) : outcome (option Q) :=
  mx <- signed64 (qround xps) ;;
  my <- signed64 (qround yps) ;;
  if ((0 <? mx) && (mx <? Z.of_nat (nc imgs)) && (0 <? my) && (my <? Z.of_nat (nr imgs)))%Z%bool
  then at_pixel imgs my mx
  else Ok None.

(* math/interpolate.hpp 228-246; x counts lines *)
Definition bilinear_strict (v : img (option Q)) (x y : Q) (def : option Q) : outcome (option Q) :=
  tix <- SplineModel.floor64 x ;;
  tiy <- SplineModel.floor64 y ;;
  if ((tix <? 0) || (wrap64 (Z.of_nat (nr v) - 1) <=? tix)
      || (tiy <? 0) || (wrap64 (Z.of_nat (nc v) - 1) <=? tiy))%Z%bool
  then Ok def
  else
    v1 <- at_pixel v tix tiy ;; v2 <- at_pixel v tix (tiy + 1) ;;
    v3 <- at_pixel v (tix + 1) tiy ;; v4 <- at_pixel v (tix + 1) (tiy + 1) ;;
    Ok (match v1, v2, v3, v4 with
        | Some v1, Some v2, Some v3, Some v4 =>
            Some (BilinModel.bilin4 v1 v2 v3 v4 (x - inject_Z tix) (y - inject_Z tiy))%Q
        | _, _, _, _ => None
        end).
(* 1816-1820 *)
Definition regrid_linear (imgs : img (option Q)) (xps yps : Q) : outcome (option Q) :=
  bilinear_strict imgs yps xps None.

Fixpoint all_some {A} (l : list (option A)) : option (list A) :=
  match l with
  | [] => Some []
  | Some a :: t => match all_some t with Some t => Some (a :: t) | None => None end
  | None :: _ => None
  end.
(* interpolate_3spline(v, t) for four values and 1 <= t < 2: if one of the values is not finite,
   the second coefficient of the spline is not finite, nor is the result *)
Definition spline4 (v : list (option Q)) (t : Q) : outcome (option Q) :=
  match all_some v with
  | Some l => SplineModel.spline_point_u l t
  | None => Ok None
  end.
(* math/interpolate.hpp 464-488; x counts lines *)
Definition bicubic_strict (v : img (option Q)) (x y : Q) (def : option Q) : outcome (option Q) :=
  tix <- SplineModel.floor64 x ;;
  tiy <- SplineModel.floor64 y ;;
  if ((tix <=? 0) || (wrap64 (Z.of_nat (nr v) - 2) <=? tix)
      || (tiy <=? 0) || (wrap64 (Z.of_nat (nc v) - 2) <=? tiy))%Z%bool
  then Ok def
  else
    tmpx <- omapl (fun ix =>
      tmpy <- omapl (fun iy => at_pixel v (Z.of_nat ix + tix - 1) (Z.of_nat iy + tiy - 1)) (seq 0 4) ;;
      spline4 tmpy (y - inject_Z tiy + 1)%Q) (seq 0 4) ;;
    spline4 tmpx (x - inject_Z tix + 1)%Q.
(* 1822-1826 *)
Definition regrid_cubic (imgs : img (option Q)) (xps yps : Q) : outcome (option Q) :=
  bicubic_strict imgs yps xps None.

(* 1858-1867 *)
Inductive method := Nearest | Linear | Cubic.
Record iparams := IParams { conserve_flux : bool; how : method; ilinearize : bool }.
Definition sample (m : method) (imgs : img (option Q)) (xps yps : Q) : outcome (option Q) :=
  match m with
  | Nearest => regrid_nearest imgs xps yps
  | Linear => regrid_linear imgs xps yps
  | Cubic => regrid_cubic imgs xps yps
  end.

(* 1966-1997: one pixel of the destination *)
Definition regrid_pixel (o : iparams) (larea : Q) (imgs : img (option Q)) (pl pu : list pt)
  (iy : nat) (res : img (option Q)) (ix : nat) : outcome (img (option Q)) :=
  a <- oget pl ix ;; b <- oget pl (ix + 1) ;; c <- oget pu (ix + 1) ;; d <- oget pu ix ;;
  let xps := ((1#4) * (fst a + fst b + fst c + fst d))%Q in
  let yps := ((1#4) * (snd a + snd b + snd c + snd d))%Q in
  flx <- sample (how o) imgs xps yps ;;
  match flx with
  | None => Ok res
  | Some q =>
      let area := if ilinearize o then larea else polyon_area [a; b; c; d] in
      p <- pset (nc res) (pix res) iy ix (Some (if conserve_flux o then q * area else q)%Q) ;;
      Ok (Img (nr res) (nc res) p)
  end.
(* 1953-2001: one line of the destination *)
Definition regrid_row (o : iparams) (s2d : s2d_map) (larea : Q) (imgs : img (option Q)) (nx : nat)
  (t : list pt * img (option Q)) (iy : nat) : outcome (list pt * img (option Q)) :=
  let '(pl, res) := t in
  let pu := corners s2d nx (qn iy + (1#2))%Q in
  res <- ofold (regrid_pixel o larea imgs pl pu iy) (seq 0 nx) res ;;
  Ok (pu, res).

(* 1869-2008; ddims: the dimensions recorded in the astrometry of the destination; (dxa, dya) and
   (sxa, sya): the axes x and y of the destination and of the source.  The dimensions of the loops
   are those of the destination along the axes of the source (1885-1886). *)
Definition regrid_interpolate (o : iparams) (s2d_wcs : s2d_map) (larea : Q) (imgs : img (option Q))
  (ddims : list nat) (dxa dya sxa sya : nat) : outcome (img (option Q)) :=
  dh <- SplineModel.at_ ddims dya ;;
  dw <- SplineModel.at_ ddims dxa ;;
  res <- filled None dh dw ;;
  nx <- SplineModel.at_ ddims sxa ;;
  ny <- SplineModel.at_ ddims sya ;;
  let csx := qn (nx / 2) in
  let csy := qn (ny / 2) in
  let c := s2d_wcs csx csy in
  let minus_c p := (fst p - fst c, snd p - snd c)%Q in
  let c1 := minus_c (s2d_wcs (csx + 1)%Q csy) in
  let c2 := minus_c (s2d_wcs csx (csy + 1)%Q) in
  if ilinearize o && is_translation c c1 c2 then
    dx <- signed64 (qround (fst c)) ;;
    dy <- signed64 (qround (snd c)) ;;
    let wx1 := Z.of_nat (nx / 2) in
    let wx2 := (Z.of_nat nx - 1 - wx1)%Z in
    let wy1 := Z.of_nat (ny / 2) in
    let wy2 := (Z.of_nat ny - 1 - wy1)%Z in
    ' (idd, ids) <- subregion_ids dh dw [dy - wy1; dx - wx1; dy + wy2; dx + wx2]%Z ;;
    r <- copy_ids (pix imgs) ids idd (repeat None (length (pix res))) ;;
    Ok (Img dh dw r)
  else
    let s2d := if ilinearize o then linear_map csx csy c c1 c2 else s2d_wcs in
    let pl := corners s2d nx (- (1#2))%Q in
    ' (_, res) <- ofold (regrid_row o s2d larea imgs nx) (seq 0 ny) (pl, res) ;;
    Ok res.
