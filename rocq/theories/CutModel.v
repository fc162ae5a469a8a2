(* Extraction of cutouts from a set of images.  Source: include/vif/astro/image.hpp 1465-1580
   (cutout_extractor::get_cutout_).

   Simplifications.  A pixel value is [option Q], where None stands for every value that is not
   finite; for images of integers no value is None.  Positions are exact rationals.  The projection
   of an image, astro::ad2xy, is a function from (ra, dec) to pixel coordinates counted from 1.
   astro::filter_wcs(hdr) is an element of an abstract type H; a header is empty, or a projection
   with the dimensions, the reference pixel and the reference position.  fits::setkey succeeds.
   An access to a pixel outside of an image file is [Throws]. *)
From Coq Require Import QArith Qround.
From Verif Require Import Base ImageModel GenModel.
Local Open Scope nat_scope.

Section Cut.
Context {H : Type}.
Record image := Image { data : img (option Q); ad2xy : Q -> Q -> Q * Q; wcs_of : H }.
(* the two extensions of the map of the distortion *)
Record distortion := Distortion { dra : img Q; ddec : img Q; dxy : Q -> Q -> Q * Q }.
Record header := Header { h_wcs : H; naxis1 : nat; naxis2 : nat; crpix : Q * Q; crval : Q * Q }.

(* 1471-1483 *)
Definition undistort (dist : option distortion) (ra dec : Q) : outcome (Q * Q) :=
  match dist with
  | None => Ok (ra, dec)
  | Some d =>
      let dx := (fst (dxy d ra dec) - 1)%Q in let dy := (snd (dxy d ra dec) - 1)%Q in
      let above t := negb (Qle_bool t (- (1#2))) in
      let below t n := negb (Qle_bool (inject_Z (Z.of_nat n) - (1#2)) t) in
      if above dx && above dy && below dx (nc (dra d)) && below dy (nr (dra d)) then
        let ix := Z.to_nat (qround dx) in let iy := Z.to_nat (qround dy) in
        a <- (if (iy <? nr (dra d)) && (ix <? nc (dra d)) then pget (dra d) iy ix else Throws) ;;
        b <- (if (iy <? nr (ddec d)) && (ix <? nc (ddec d)) then pget (ddec d) iy ix else Throws) ;;
        Ok (ra - a, dec - b)%Q
      else Ok (ra, dec)
  end.

(* 1485; aspix is None if it is not a number *)
Definition half_size (size : Q) (aspix : option Q) : outcome Z :=
  match aspix with
  | None => UB
  | Some a => if Qeq_bool a 0 then UB
              else let c := Qceiling ((1#2) * size / a) in signed64 (if 1 >? c then 1 else c)%Z
  end.

(* fits::input_image::read_subset(v, y0-_-y1, x0-_-x1) *)
Definition read_subset (v : img (option Q)) (y0 y1 x0 x1 : Z) : outcome (img (option Q)) :=
  if ((0 <=? y0) && (y0 <=? y1) && (y1 <? Z.of_nat (nr v)) && (0 <=? x0) && (x0 <=? x1) && (x1 <? Z.of_nat (nc v)))%Z%bool then
    let n := Z.to_nat (y1 - y0 + 1) in let m := Z.to_nat (x1 - x0 + 1) in
    d <- omapl (fun p => pget v (fst p + Z.to_nat y0) (snd p + Z.to_nat x0)) (grid n m) ;;
    Ok (Img n m d)
  else Throws.

(* 1501-1526: the window of half size hs around the pixel (yc, xc); None: not covered (1501-1504) *)
Definition window_of (v : img (option Q)) (def : option Q) (hs yc xc : Z) : outcome (option (img (option Q))) :=
  iy0 <- signed64 (yc - hs) ;; iy1 <- signed64 (yc + hs) ;;
  ix0 <- signed64 (xc - hs) ;; ix1 <- signed64 (xc + hs) ;;
  let w := Z.of_nat (nc v) in let h := Z.of_nat (nr v) in
  if ((ix1 <? 0) || (w <=? ix0) || (iy1 <? 0) || (h <=? iy0))%Z%bool then Ok None
  else if ((ix0 <? 0) || (w <=? ix1) || (iy0 <? 0) || (h <=? iy1))%Z%bool then
    let n := Z.to_nat (2 * hs + 1) in
    data <- filled def n n ;;
    let tx0 := Z.max 0 ix0 in let ty0 := Z.max 0 iy0 in
    let tx1 := Z.min (wrap64 (w - 1)) ix1 in let ty1 := Z.min (wrap64 (h - 1)) iy1 in
    sub <- read_subset v ty0 ty1 tx0 tx1 ;;
    let x0 := (tx0 - ix0)%Z in let x1 := (tx1 - ix0)%Z in
    let y0 := (ty0 - iy0)%Z in let y1 := (ty1 - iy0)%Z in
    _ <- check ((Z.to_nat y1 <? n) && (Z.to_nat x1 <? n)) ;;
    _ <- check ((nr sub =? Z.to_nat (y1 - y0 + 1)) && (nc sub =? Z.to_nat (x1 - x0 + 1))) ;;
    d <- ofold (fun d '(y, x) => z <- pget sub y x ;; pset n d (y + Z.to_nat y0) (x + Z.to_nat x0) z)
           (grid (nr sub) (nc sub)) (pix data) ;;
    Ok (Some (Img n n d))
  else
    d <- read_subset v iy0 iy1 ix0 ix1 ;; Ok (Some d).

(* 1542-1544: cut[idb] = data[idb] where cut is not finite *)
Definition combine_cuts (cut d : img (option Q)) : outcome (img (option Q)) :=
  r <- ofold (fun r i => c <- oget r i ;;
         match c with Some _ => Ok r | None => z <- oget (pix d) i ;; oset r i z end)
         (seq 0 (length (pix cut))) (pix cut) ;;
  Ok (Img (nr cut) (nc cut) r).

(* the state of the loop 1488-1546 *)
Record progress := Progress { cut : option (img (option Q)); hdr : option H; ref : Q * Q }.
Definition next_image (def : option Q) (hs : Z) (gethdr : bool) (ira idec : Q) (s : progress) (i : image) : outcome progress :=
  let '(a, b) := ad2xy i ira idec in
  let dxc := (a - 1)%Q in let dyc := (b - 1)%Q in
  xc <- signed64 (qround dxc) ;;
  yc <- signed64 (qround dyc) ;;
  w <- window_of (data i) def hs yc xc ;;
  match w, cut s with
  | None, _ => Ok s
  | Some d, None =>
      Ok (Progress (Some d) (if gethdr then Some (wcs_of i) else hdr s)
           (inject_Z (hs + 1) + (dxc - inject_Z xc), inject_Z (hs + 1) + (dyc - inject_Z yc))%Q)
  | Some d, Some c => c <- combine_cuts c d ;; Ok (Progress (Some c) (hdr s) (ref s))
  end.

(* 1465-1567; h0: the projection of the header given by the caller, None if it is empty *)
Definition get_cutout (imgs : list image) (dist : option distortion) (aspix : option Q) (h0 : option H)
  (gethdr : bool) (ra dec size : Q) (def : option Q) : outcome (bool * img (option Q) * option header) :=
  ' (ira, idec) <- undistort dist ra dec ;;
  hs <- half_size size aspix ;;
  s <- ofold (next_image def hs gethdr ira idec) imgs
         (Progress None h0 (inject_Z hs + 1, inject_Z hs + 1)%Q) ;;
  hd <- (if gethdr then
           h <- match hdr s with
                | Some h => Ok h
                | None => match imgs with i :: _ => Ok (wcs_of i) | [] => CheckFail end
                end ;;
           let dims := match cut s with Some c => (nr c, nc c) | None => (0, 0) end in
           Ok (Some (Header h (snd dims) (fst dims) (ref s) (ra, dec)))
         else Ok None) ;;
  match cut s with
  | Some c => Ok (true, c, hd)
  | None => let n := Z.to_nat (2 * hs + 1) in
            c <- filled def n n ;; Ok (false, c, hd)
  end.
End Cut.
