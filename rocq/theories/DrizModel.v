(* Regridding of an image by drizzling.  Source: include/vif/astro/image.hpp 1617-1803 and
   2010-2203.

   Simplifications.  Coordinates are exact rationals, hence finite: a position that WCSLIB cannot
   project is left out.  A pixel value is [option Q], where None stands for every value that is
   not finite (such values stay not finite under the sums, products and quotients done here).
   The two vectors xps and yps, which always have the same length, are one list of points.
   astro::xy2ad followed by astro::ad2xy is a parameter, a map from the pixel coordinates of the
   first image to those of the second (counted from 0); the square roots of 2083 are a parameter,
   the area [larea].  Images are two-dimensional.  Progress bars are left out. *)
From Coq Require Import QArith Qabs Qround.
From Verif Require Import Base VecModel ImageModel GenModel.
Local Open Scope nat_scope.

Definition pt : Type := Q * Q.
Definition qn (n : nat) : Q := inject_Z (Z.of_nat n).
Definition qlt (a b : Q) : bool := negb (Qle_bool b a).

(* arithmetic of values that may be not finite *)
Definition fadd (a b : option Q) : option Q :=
  match a, b with Some a, Some b => Some (a + b)%Q | _, _ => None end.
Definition fmul (a b : option Q) : option Q :=
  match a, b with Some a, Some b => Some (a * b)%Q | _, _ => None end.
Definition fdiv (a b : option Q) : option Q :=
  match a, b with
  | Some a, Some b => if Qeq_bool b 0 then None else Some (a / b)%Q
  | _, _ => None
  end.

(* minmax(v) (reduce.hpp 292-324, 337-341) *)
Definition minmax (v : list Q) : outcome (Q * Q) :=
  match v with
  | [] => CheckFail
  | x :: t => Ok (fold_left (fun m x => if qlt x (fst m) then (x, snd m)
                                        else if negb (qlt x (snd m)) then (fst m, x) else m) t (x, x))
  end.
(* 1620-1626; the conversion of a double outside the range of int_t is undefined *)
Definition getbounds (v : list Q) (n : Z) : outcome (Z * Z) :=
  ' (lo, hi) <- minmax v ;;
  tmp <- signed64 (Qfloor (hi + (1#2))) ;;
  let ma := (if n <? tmp then n else tmp)%Z in
  tmp <- signed64 (Qfloor (lo + (1#2))) ;;
  Ok ((if 0 <? tmp then tmp else 0)%Z, ma).

(* 1633-1637 *)
Definition in_poly_edge (orient : Z) (c1 c2 p : pt) : bool :=
  let cross := ((fst c2 - fst c1) * (snd p - snd c1) - (snd c2 - snd c1) * (fst p - fst c1))%Q in
  qlt (cross * inject_Z orient) 0.
(* 5*std::numeric_limits<double>::epsilon() *)
Definition eps5 : Q := 5 # 4503599627370496.
(* 1644-1668 *)
Definition segment_intersect (l1a l1b l2a l2b : pt) : option pt :=
  (let s1x := fst l1b - fst l1a in
   let s1y := snd l1b - snd l1a in
   let s2x := fst l2b - fst l2a in
   let s2y := snd l2b - snd l2a in
   let det := s1x * s2y - s1y * s2x in
   if qlt (Qabs det) eps5 then None
   else
     let s12x := fst l1a - fst l2a in
     let s12y := snd l1a - snd l2a in
     let t := (s2x * s12y - s2y * s12x) / det in
     Some (fst l1a + t * s1x, snd l1a + t * s1y))%Q.
(* 1670-1694 *)
Fixpoint fan (p1 : pt) (l : list pt) : Q :=
  match l with
  | p2 :: (p3 :: _) as t =>
      ((1#2) * Qabs (fst p1 * (snd p2 - snd p3) + fst p2 * (snd p3 - snd p1)
                     + fst p3 * (snd p1 - snd p2)) + fan p1 t)%Q
  | _ => 0%Q
  end.
Definition polyon_area (ps : list pt) : Q :=
  match ps with p1 :: t => fan p1 t | [] => 0%Q end.

(* 1763-1789: the loop on the edges [i2-i1] of the current polygon; i2 precedes l *)
Fixpoint clip_from (orient : Z) (c1 c2 i2 : pt) (l : list pt) : list pt :=
  match l with
  | [] => []
  | i1 :: t =>
      (if xorb (in_poly_edge orient c1 c2 i2) (in_poly_edge orient c1 c2 i1)
       then match segment_intersect c1 c2 i1 i2 with Some e => [e] | None => [] end
       else [])
      ++ (if in_poly_edge orient c1 c2 i1 then [i1] else [])
      ++ clip_from orient c1 c2 i1 t
  end.
Definition clip_edge (orient : Z) (c1 c2 : pt) (ps : list pt) : list pt :=
  match ps with [] => [] | _ => clip_from orient c1 c2 (last ps c1) ps end.
(* 1746-1792: the edges [c2-c1] of the projection; an empty polygon stays empty *)
Fixpoint clip_all (orient : Z) (c2 : pt) (cs : list pt) (ps : list pt) : list pt :=
  match cs with
  | [] => ps
  | c1 :: t => clip_all orient c1 t (clip_edge orient c1 c2 ps)
  end.
Definition square (x y : Z) : list pt :=
  (let x := inject_Z x in let y := inject_Z y in
   [(x - (1#2), y - (1#2)); (x + (1#2), y - (1#2)); (x + (1#2), y + (1#2)); (x - (1#2), y + (1#2))])%Q.
Definition intersection (orient : Z) (proj : list pt) (x y : Z) : list pt :=
  clip_all orient (last proj (0, 0)%Q) proj (square x y).

(* 1696-1701 *)
Definition add_flux (imgs : img (option Q)) (ix iy : nat) (frac : option Q)
  (res : img (option Q)) (idx idy : nat) : outcome (img (option Q)) :=
  a <- pget res idy idx ;;
  b <- pget imgs iy ix ;;
  d <- pset (nc res) (pix res) idy idx (fadd a (fmul b frac)) ;;
  Ok (Img (nr res) (nc res) d).
Definition add_weight (wei : img Q) (idx idy : nat) (w : Q) : outcome (img Q) :=
  a <- pget wei idy idx ;;
  d <- pset (nc wei) (pix wei) idy idx (a + w)%Q ;;
  Ok (Img (nr wei) (nc wei) d).

Definition state : Type := img (option Q) * img Q.
(* for (uint_t i = a; i <= b; ++i), for 0 <= a and b < 2^63 *)
Definition zrange (a b : Z) : list Z := map (fun k => (a + Z.of_nat k)%Z) (seq 0 (Z.to_nat (b - a + 1))).
(* 1735-1736 *)
Definition orientation (ps : list pt) : outcome Z :=
  p0 <- oget ps 0 ;; p1 <- oget ps 1 ;; p2 <- oget ps 2 ;;
  Ok (if qlt 0 ((fst p1 - fst p0) * (snd p2 - snd p1) - (snd p1 - snd p0) * (fst p2 - fst p1))%Q
      then 1 else -1)%Z.
(* 1741-1801: one pixel of the destination *)
Definition drizzle_to (imgs : img (option Q)) (ix iy : nat) (frac : Q) (ps : list pt) (area : Q)
  (orient : Z) (s : state) (yx : Z * Z) : outcome state :=
  let '(res, wei) := s in
  let '(ipy, ipx) := yx in
  let cp := intersection orient ps ipx ipy in
  if length cp <? 3 then Ok s
  else
    let w := polyon_area cp in
    res <- add_flux imgs ix iy (fmul (Some frac) (fdiv (Some w) (Some area))) res
             (Z.to_nat ipx) (Z.to_nat ipy) ;;
    wei <- add_weight wei (Z.to_nat ipx) (Z.to_nat ipy) w ;;
    Ok (res, wei).
(* 1710-1803: one pixel of the source, whose projection is ps *)
Definition drizzle_pixel (imgs : img (option Q)) (ix iy : nat) (frac : Q) (ps : list pt) (area : Q)
  (s : state) : outcome state :=
  let '(res, wei) := s in
  let last_of d := to_signed64 (wrap64 (Z.of_nat d - 1)) in
  ' (ymin, tymax) <- getbounds (map snd ps) (last_of (nr wei)) ;;
  ' (xmin, txmax) <- getbounds (map fst ps) (last_of (nc wei)) ;;
  if ((tymax <? 0) || (txmax <? 0) || (Z.of_nat (nc wei) <=? xmin) || (Z.of_nat (nr wei) <=? ymin))%Z
  then Ok s
  else if ((txmax =? xmin) && (tymax =? ymin))%Z then
    res <- add_flux imgs ix iy (Some frac) res (Z.to_nat xmin) (Z.to_nat ymin) ;;
    wei <- add_weight wei (Z.to_nat xmin) (Z.to_nat ymin) area ;;
    Ok (res, wei)
  else
    orient <- orientation ps ;;
    ofold (drizzle_to imgs ix iy frac ps area orient)
      (list_prod (zrange ymin tymax) (zrange xmin txmax)) s.

(* 2010-2015 *)
Record params := Params { pixfrac : Q; linearize : bool; dest_pixfrac : bool }.

(* mean of a vector (reduce.hpp); never empty here *)
Definition qmean (v : list Q) : Q := (fold_left Qplus v 0 / qn (length v))%Q.
(* 2166-2169: shrinks a projection around the mean of its corners *)
Definition shrink_to (f : Q) (ps : list pt) : list pt :=
  let mx := qmean (map fst ps) in
  let my := qmean (map snd ps) in
  map (fun p => (mx + f * (fst p - mx), my + f * (snd p - my))%Q) ps.

Definition s2d_map : Type := Q -> Q -> pt.
(* 2108-2112 *)
Definition linear_map (csx csy : Q) (c c1 c2 : pt) : s2d_map := fun sx sy =>
  ((sx - csx) * fst c1 + (sy - csy) * fst c2 + fst c,
   (sx - csx) * snd c1 + (sy - csy) * snd c2 + snd c)%Q.

(* 2125-2127, 2140-2142: the corners along one line of the grid *)
Definition corners (s2d : s2d_map) (nx : nat) (y : Q) : list pt :=
  map (fun ix => s2d (qn ix - (1#2))%Q y) (seq 0 (nx + 1)).
(* 2143-2151, 2160-2174: the projection of pixel (ix, iy); pl and pu are the lines of corners below and above *)
Definition projection (o : params) (s2d : s2d_map) (pl pu : list pt) (ix iy : nat) : outcome (list pt) :=
  if Qeq_bool (pixfrac o) 1 || dest_pixfrac o then
    a <- oget pl ix ;; b <- oget pl (ix + 1) ;; c <- oget pu (ix + 1) ;; d <- oget pu ix ;;
    let ps := [a; b; c; d] in
    Ok (if dest_pixfrac o && negb (Qeq_bool (pixfrac o) 1) then shrink_to (pixfrac o) ps else ps)
  else
    let dp := ((1#2) * pixfrac o)%Q in
    let x := qn ix in let y := qn iy in
    Ok [s2d (x - dp) (y - dp); s2d (x + dp) (y - dp); s2d (x + dp) (y + dp); s2d (x - dp) (y + dp)]%Q.

(* 2138-2190: one line of the source *)
Definition drizzle_row (o : params) (s2d : s2d_map) (larea : Q) (imgs : img (option Q))
  (t : list pt * state) (iy : nat) : outcome (list pt * state) :=
  let '(pl, s) := t in
  let pu := corners s2d (nc imgs) (qn iy + (1#2))%Q in
  s <- ofold (fun s ix =>
         ps <- projection o s2d pl pu ix iy ;;
         let area := if linearize o then larea else polyon_area ps in
         drizzle_pixel imgs ix iy (pixfrac o * pixfrac o)%Q ps area s)
       (seq 0 (nc imgs)) s ;;
  Ok (pu, s).

(* 2085-2087 *)
Definition qclose (a tol : Q) : bool := qlt (Qabs a) tol.
Definition is_translation (c c1 c2 : pt) : bool :=
  (qclose (fst c - inject_Z (qround (fst c))) (1 # 1000000)
   && qclose (snd c - inject_Z (qround (snd c))) (1 # 1000000)
   && qclose (fst c1 - 1) (1 # 1000000) && qclose (snd c2 - 1) (1 # 1000000)
   && qclose (snd c1) (1 # 1000) && qclose (fst c2) (1 # 1000))%Q%bool.

(* res /= wei (1848-1850) *)
Definition apply_weights (s : state) : state :=
  let '(res, wei) := s in
  (Img (nr res) (nc res) (map (fun '(r, w) => fdiv r (Some w)) (combine (pix res) (pix wei))), wei).

(* 2017-2196; sdims: the dimensions recorded in the astrometry of the source (height, width);
   dh, dw: those of the destination *)
Definition regrid_drizzle (o : params) (s2d_wcs : s2d_map) (larea : Q) (sdims : nat * nat)
  (imgs : img (option Q)) (dh dw : nat) : outcome state :=
  _ <- check ((nr imgs =? fst sdims) && (nc imgs =? snd sdims)) ;;
  res <- filled (Some 0%Q) dh dw ;;
  wei <- filled 0%Q dh dw ;;
  let nx := nc imgs in
  let ny := nr imgs in
  let csx := qn (nx / 2) in
  let csy := qn (ny / 2) in
  let c := s2d_wcs csx csy in
  let minus_c p := (fst p - fst c, snd p - snd c)%Q in
  let c1 := minus_c (s2d_wcs (csx + 1)%Q csy) in
  let c2 := minus_c (s2d_wcs csx (csy + 1)%Q) in
  if linearize o && is_translation c c1 c2 then
    dx <- signed64 (qround (fst c)) ;;
    dy <- signed64 (qround (snd c)) ;;
    let wx1 := Z.of_nat (nx / 2) in
    let wx2 := (Z.of_nat nx - 1 - wx1)%Z in
    let wy1 := Z.of_nat (ny / 2) in
    let wy2 := (Z.of_nat ny - 1 - wy1)%Z in
    ' (idd, ids) <- subregion_ids dh dw [dy - wy1; dx - wx1; dy + wy2; dx + wx2]%Z ;;
    r <- copy_ids (pix imgs) ids idd (repeat None (length (pix res))) ;;
    w <- ofold (fun d i => oset d (Z.to_nat i) 1%Q) idd (pix wei) ;;
    Ok (Img dh dw r, Img dh dw w)
  else
    let s2d := if linearize o then linear_map csx csy c c1 c2 else s2d_wcs in
    let pl := corners s2d nx (- (1#2))%Q in
    ' (_, s) <- ofold (drizzle_row o s2d larea imgs) (seq 0 ny) (pl, (res, wei)) ;;
    Ok (apply_weights s).
