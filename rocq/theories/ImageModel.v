(* Image operations.  Source: include/vif/astro/image.hpp.
   An image is a vec<2,T>: dims[0] rows of dims[1] pixels, stored row by row.
   img.safe(x,y) is data[x*dims[1] + y] without any check. *)
From Coq Require Import NArith.
From Verif Require Import Base IndexModel VecModel.

Record img (A : Type) := Img { nr : nat; nc : nat; pix : list A }.
Arguments Img {A} nr nc pix.
Arguments nr {A} i.
Arguments nc {A} i.
Arguments pix {A} i.

(* for (x : range(n)) for (y : range(m)) *)
Definition grid (n m : nat) : list (nat * nat) := list_prod (seq 0 n) (seq 0 m).
(* v.safe(x,y) *)
Definition pget {A} (v : img A) (x y : nat) : outcome A := oget (pix v) (x * nc v + y).
(* r.safe(x,y) = a, for an image r with m columns stored in d *)
Definition pset {A} (m : nat) (d : list A) (x y : nat) (a : A) : outcome (list A) := oset d (x * m + y) a.

(* replicate(def, n, m) (generic-rearrange.hpp 66-76) and vec(n, m); n and m are uint_t, their
   product wraps around *)
Definition filled {A} (def : A) (n m : nat) : outcome (img A) :=
  d <- data_resize def (nwrap (n * m)) [] ;; Ok (Img n m d).

Section Image.
Context {A : Type}.
Implicit Types (v : img A) (def : A).

(* 14-27; upix has four entries *)
Definition enlarge v (u0 u1 u2 u3 : nat) def : outcome (img A) :=
  r <- filled def (nwrap (nr v + u0 + u2)) (nwrap (nc v + u1 + u3)) ;;
  d <- ofold (fun d '(x, y) => a <- pget v x y ;; pset (nc r) d (x + u0) (y + u1) a)
         (grid (nr v) (nc v)) (pix r) ;;
  Ok (Img (nr r) (nc r) d).
(* 29-33 *)
Definition enlarge_all v (u : nat) def := enlarge v u u u u def.
(* 35-49; dflt is the value of an element before it is assigned *)
Definition shrink (dflt : A) v (u0 u1 u2 u3 : nat) : outcome (img A) :=
  if (nr v <=? nwrap (u0 + u2)) || (nc v <=? nwrap (u1 + u3)) then Ok (Img 0 0 [])
  else
    r <- filled dflt (nsub64 (nsub64 (nr v) u0) u2) (nsub64 (nsub64 (nc v) u1) u3) ;;
    d <- ofold (fun d '(x, y) => a <- pget v (x + u0) (y + u1) ;; pset (nc r) d x y a)
           (grid (nr r) (nc r)) (pix r) ;;
    Ok (Img (nr r) (nc r) d).
Definition shrink_all (dflt : A) v (u : nat) := shrink dflt v u u u u.

(* 63-111: the positions in the image and in the region; reg holds signed 64-bit integers *)
Definition subregion_ids (n m : nat) (reg : list Z) : outcome (list Z * list Z) :=
  match reg with
  | [r0; r1; r2; r3] =>
      let nvx := Z.of_nat n in let nvy := Z.of_nat m in
      nx <- (d <- signed64 (r2 - r0) ;; signed64 (d + 1)) ;;
      ny <- (d <- signed64 (r3 - r1) ;; signed64 (d + 1)) ;;
      if (nvx <=? r0) || (r2 <? 0) || (r2 <? r0) || (nvy <=? r1) || (r3 <? 0) || (r3 <? r1)
      then Ok ([], [])
      else
        let '(v0, s0) := if r0 <? 0 then (0, 0 - r0) else (r0, 0) in
        let '(v2, s2) := if nvx <=? r2 then (nvx - 1, nx - 1 - (r2 - (nvx - 1))) else (r2, nx - 1) in
        let '(v1, s1) := if r1 <? 0 then (0, 0 - r1) else (r1, 0) in
        let '(v3, s3) := if nvy <=? r3 then (nvy - 1, ny - 1 - (r3 - (nvy - 1))) else (r3, ny - 1) in
        let nnx := v2 - v0 + 1 in
        let nny := v3 - v1 + 1 in
        let ids := map Z.of_nat (seq 0 (Z.to_nat (wrap64 (nnx * nny)))) in
        Ok (map (fun i => wrap64 (i mod nny + v1 + (i / nny + v0) * nvy)) ids,
            map (fun i => wrap64 (i mod nny + s1 + (i / nny + s0) * ny)) ids)
  | _ => CheckFail
  end%Z.
(* sub.safe[rs] = v.safe[rr] (both lists have the same length) *)
Definition copy_ids (src : list A) (from to : list Z) (dst : list A) : outcome (list A) :=
  ofold (fun d '(a, b) => x <- oget src (Z.to_nat a) ;; oset d (Z.to_nat b) x) (combine from to) dst.
(* 113-124; nx and ny are converted to uint_t *)
Definition subregion v (reg : list Z) def : outcome (img A) :=
  '(rr, rs) <- subregion_ids (nr v) (nc v) reg ;;
  match reg with
  | [r0; r1; r2; r3] =>
      sub <- filled def (Z.to_nat (wrap64 (r2 - r0 + 1))) (Z.to_nat (wrap64 (r3 - r1 + 1))) ;;
      d <- copy_ids (pix v) rr rs (pix sub) ;;
      Ok (Img (nr sub) (nc sub) d)
  | _ => CheckFail
  end.
(* 338-350; the index vectors are checked, which changes nothing when they are in range *)
Definition recenter_dims v (cy cx : Z) (d0 d1 : nat) def : outcome (img A) :=
  nimg <- filled def d0 d1 ;;
  let ty0 := (cy - Z.of_nat d0 / 2)%Z in
  let tx0 := (cx - Z.of_nat d1 / 2)%Z in
  '(ip, it) <- subregion_ids (nr v) (nc v)
                 [ty0; tx0; (ty0 + Z.of_nat d0 - 1)%Z; (tx0 + Z.of_nat d1 - 1)%Z] ;;
  d <- copy_ids (pix v) ip it (pix nimg) ;;
  Ok (Img d0 d1 d).

(* std::swap of two pixels *)
Definition pswap (m : nat) (d : list A) (x y x' y' : nat) : outcome (list A) :=
  a <- oget d (x * m + y) ;; b <- oget d (x' * m + y') ;;
  d <- oset d (x * m + y) b ;; oset d (x' * m + y') a.
(* 157-166 *)
Definition flip_x v : outcome (img A) :=
  d <- ofold (fun d '(y, x) => pswap (nc v) d y x y (nc v - 1 - x)) (grid (nr v) (nc v / 2)) (pix v) ;;
  Ok (Img (nr v) (nc v) d).
(* 168-177 *)
Definition flip_y v : outcome (img A) :=
  d <- ofold (fun d '(y, x) => pswap (nc v) d y x (nr v - 1 - y) x) (grid (nr v / 2) (nc v)) (pix v) ;;
  Ok (Img (nr v) (nc v) d).

(* v.raw_stride(ix,_) and v.raw_stride(_,iy): the positions visited (core/bits/access.hpp
   664-739) *)
Definition row_pos (n m ix : nat) : list nat := map (fun y => ix * m + y) (seq 0 m).
Definition col_pos (n m iy : nat) : list nat := map (fun x => x * m + iy) (seq 0 n).
(* an algorithm that rearranges the range of positions pos; f gives the new contents *)
Definition on_range (f : list A -> list A) (d : list A) (pos : list nat) : outcome (list A) :=
  l <- omapl (oget d) pos ;;
  ofold (fun d '(p, a) => oset d p a) (combine pos (f l)) d.
(* std::rotate(begin, begin + k, end) *)
Definition rotate (k : nat) (l : list A) : list A := skipn k l ++ firstn k l.
(* it = std::copy(begin + k, end, begin); std::fill(it, end, def) *)
Definition shift_down (def : A) (k : nat) (l : list A) : list A := skipn k l ++ repeat def k.
(* it = std::copy_backward(begin, end - k, end); std::fill(begin, it, def) *)
Definition shift_up (def : A) (k : nat) (l : list A) : list A := repeat def k ++ firstn (length l - k) l.
(* (-ts) % int_t(d) *)
Definition neg_rem (ts : Z) (d : nat) : outcome Z :=
  t <- signed64 (- ts) ;; if (Z.of_nat d =? 0)%Z then UB else Ok (Z.rem t (Z.of_nat d)).
(* 261-281 *)
Definition shift v (tsx tsy : Z) : outcome (img A) :=
  tsx <- neg_rem tsx (nr v) ;; tsy <- neg_rem tsy (nc v) ;;
  let tsx := if (tsx <? 0)%Z then (Z.of_nat (nr v) + tsx)%Z else tsx in
  let tsy := if (tsy <? 0)%Z then (Z.of_nat (nc v) + tsy)%Z else tsy in
  d <- (if (tsy =? 0)%Z then Ok (pix v)
        else ofold (fun d ix => on_range (rotate (Z.to_nat tsy)) d (row_pos (nr v) (nc v) ix)) (seq 0 (nr v)) (pix v)) ;;
  d <- (if (tsx =? 0)%Z then Ok d
        else ofold (fun d iy => on_range (rotate (Z.to_nat tsx)) d (col_pos (nr v) (nc v) iy)) (seq 0 (nc v)) d) ;;
  Ok (Img (nr v) (nc v) d).
(* 289-323 *)
Definition translate_integer v (tsx tsy : Z) def : outcome (img A) :=
  tsx <- neg_rem tsx (nr v) ;; tsy <- neg_rem tsy (nc v) ;;
  let f ts := if (0 <? ts)%Z then shift_down def (Z.to_nat ts) else shift_up def (Z.to_nat (- ts)) in
  d <- (if (tsy =? 0)%Z then Ok (pix v)
        else ofold (fun d ix => on_range (f tsy) d (row_pos (nr v) (nc v) ix)) (seq 0 (nr v)) (pix v)) ;;
  d <- (if (tsx =? 0)%Z then Ok d
        else ofold (fun d iy => on_range (f tsx) d (col_pos (nr v) (nc v) iy)) (seq 0 (nc v)) d) ;;
  Ok (Img (nr v) (nc v) d).
(* 352-356 *)
Definition recenter v (cy cx : Z) def : outcome (img A) :=
  translate_integer v (Z.of_nat (nr v) / 2 - cy) (Z.of_nat (nc v) / 2 - cx) def.

(* x < n - h in uint_t *)
Definition below (x n h : nat) : bool :=
  N.ltb (N.of_nat x) (N.modulo (two64N + N.of_nat n - N.of_nat h) two64N).
(* 751-774; tmp holds the pixels of the window, row by row *)
Definition window v (hsize x y : nat) : outcome (list A) :=
  let x0 := if hsize <=? x then x - hsize else 0 in
  let x1 := if below x (nr v) hsize then x + hsize else nr v - 1 in
  let y0 := if hsize <=? y then y - hsize else 0 in
  let y1 := if below y (nc v) hsize then y + hsize else nc v - 1 in
  omapl (fun '(tx, ty) => pget v tx ty) (list_prod (seq x0 (x1 + 1 - x0)) (seq y0 (y1 + 1 - y0))).
Definition boxcar {B} v (hsize : nat) (func : list A -> B) : outcome (img B) :=
  d <- omapl (fun '(x, y) => omap func (window v hsize x y)) (grid (nr v) (nc v)) ;;
  Ok (Img (nr v) (nc v) d).
End Image.

(* 776-831.  Not modelled: overflow of 2*d*(d+1) *)
Definition edge_ids (m : img bool) : outcome (list nat) :=
  ofold (fun ids '(x, y) =>
    b <- pget m x y ;;
    if b then
      l <- (if 0 <? x then omap negb (pget m (x - 1) y) else Ok false) ;;
      r <- (if l then Ok true else if x <? nr m - 1 then omap negb (pget m (x + 1) y) else Ok false) ;;
      d <- (if r then Ok true else if 0 <? y then omap negb (pget m x (y - 1)) else Ok false) ;;
      u <- (if d then Ok true else if y <? nc m - 1 then omap negb (pget m x (y + 1)) else Ok false) ;;
      Ok (if u then ids ++ [x * nc m + y] else ids)
    else Ok ids) (grid (nr m) (nc m)) [].
Definition kernel (d : nat) : list (Z * Z) :=
  flat_map (fun k => map (fun l =>
    let k := Z.of_nat k in let l := Z.of_nat l in
    let ml := (l mod k)%Z in
    if (l <? k)%Z then (k - ml, - ml)%Z
    else if (l <? 2 * k)%Z then (- ml, - k + ml)%Z
    else if (l <? 3 * k)%Z then (- k + ml, ml)%Z
    else (ml, k - ml)%Z) (seq 0 (4 * k))) (seq 1 d).
Definition mask_inflate (m : img bool) (d : nat) : outcome (img bool) :=
  if d =? 0 then Ok m
  else
    ids <- edge_ids m ;;
    data <- ofold (fun data i =>
        j <- mult_ids [nr m; nc m] i ;;
        j0 <- oget j 0 ;; j1 <- oget j 1 ;;
        ofold (fun data '(kx, ky) =>
          let tx := (Z.of_nat j0 + kx)%Z in let ty := (Z.of_nat j1 + ky)%Z in
          if ((0 <=? tx) && (tx <? Z.of_nat (nr m)) && (0 <=? ty) && (ty <? Z.of_nat (nc m)))%Z
          then pset (nc m) data (Z.to_nat tx) (Z.to_nat ty) true else Ok data) (kernel d) data)
      ids (pix m) ;;
    Ok (Img (nr m) (nc m) data).

(* 428-457, over a ring.  The bounds xn, yn are uint_t and wrap around. *)
Section Convolve.
Context {R : Type} (rO : R) (radd rmul : R -> R -> R) (zerob : R -> bool).
Definition zseq (a b : Z) : list Z := map (fun k => a + Z.of_nat k)%Z (seq 0 (Z.to_nat (b - a))).
Definition low (k h : Z) : Z := if (h <=? k)%Z then 0%Z else (h - k)%Z.
Definition high (n k h : Z) : Z := wrap64 (n - (if (h <=? k)%Z then k - h else 0))%Z.
Definition convolve2d_naive (map_ kernel_ : img R) : outcome (img R) :=
  _ <- check ((nr kernel_ mod 2 =? 1) && (nc kernel_ mod 2 =? 1)) ;;
  let hx := Z.of_nat (nr kernel_ / 2) in
  let hy := Z.of_nat (nc kernel_ / 2) in
  d <- ofold (fun d '(kx, ky) =>
      kw <- pget kernel_ kx ky ;;
      if zerob kw then Ok d
      else
        let kx := Z.of_nat kx in let ky := Z.of_nat ky in
        ofold (fun d '(x, y) =>
            a <- pget map_ (Z.to_nat x) (Z.to_nat y) ;;
            let p := Z.to_nat (wrap64 ((x + kx - hx) * Z.of_nat (nc map_) + (y + ky - hy))) in
            o <- oget d p ;; oset d p (radd o (rmul a kw)))
          (list_prod (zseq (low kx hx) (high (Z.of_nat (nr map_)) kx hx))
                     (zseq (low ky hy) (high (Z.of_nat (nc map_)) ky hy))) d)
    (grid (nr kernel_) (nc kernel_)) (repeat rO (nr map_ * nc map_)) ;;
  Ok (Img (nr map_) (nc map_) d).
End Convolve.
