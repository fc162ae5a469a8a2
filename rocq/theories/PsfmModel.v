(* Images of point spread functions from a textual model.  Sources: include/vif/astro/astro.hpp 1387-1500 (make_psf)
   and astro/image.hpp 405-414 (generate_img).

   Simplifications.  Numbers are exact rationals; the exponential and the square root are parameters.  A pixel is
   [option Q], None standing for a NaN.  Reading the image of a file is a parameter, and so is reading a number: [num s]
   is None if s does not start with one.  from_string then stores 0 (operator>> does since C++11), except if s is empty:
   nothing is stored, and the variable, which make_psf does not initialise, is indeterminate (UB).  The texts "nan" and
   "inf" are not modelled as numbers.  Messages are not modelled.  The result is the value returned and the image psf. *)
From Coq Require Import Ascii String QArith Qround.
From Verif Require Import Base ImageModel GenModel StrModel DrizModel TransfModel.
From Verif Require IndexModel ReduceModel SectModel.
Local Open Scope list_scope.
Local Open Scope nat_scope.

Definition same (a : list ascii) (s : string) : bool :=
  if list_eq_dec ascii_dec a (list_ascii_of_string s) then true else false.
(* comparator_greater (OrderModel.v) *)
Definition greater (a b : option Q) : bool :=
  match a, b with
  | Some a, Some b => negb (Qle_bool a b)
  | Some _, None => true
  | None, _ => false
  end.
Definition is_zero (a : option Q) : bool := match a with Some a => Qeq_bool a 0 | None => false end.

(* image.hpp 405-414 *)
Definition generate_img (n m : nat) (e : nat -> nat -> outcome (option Q)) : outcome (img (option Q)) :=
  r <- filled (Some 0%Q) n m ;; each_pixel n m e (pix r).

(* tpsf(x,y) with signed subscripts: a negative one is converted to a large unsigned one *)
Definition at2 (t : img (option Q)) (x y : Z) : outcome (option Q) :=
  _ <- check ((0 <=? x) && (x <? Z.of_nat (nr t)) && (0 <=? y) && (y <? Z.of_nat (nc t)))%Z ;;
  oget (pix t) (Z.to_nat x * nc t + Z.to_nat y).

Section Psf.
Variables (expq sqrtq : Q -> Q).
Variable num : list ascii -> option Q.
Variable read : list ascii -> outcome (img (option Q)).

(* exp(-r2/(2*sqr(w))); for w = 0 this is exp(-0/0) or exp(-inf) *)
Definition bell (r2 w : Q) : option Q :=
  if Qeq_bool w 0 then if Qeq_bool r2 0 then None else Some 0%Q
  else Some (expq (- r2 / (2 * (w * w))))%Q.
Definition r2 (x0 y0 : Q) (x y : nat) : Q := ((qn x - x0) * (qn x - x0) + (qn y - y0) * (qn y - y0))%Q.
(* 1408-1410 *)
Definition gaussian (amp width x0 y0 : Q) (x y : nat) : option Q :=
  match bell (r2 x0 y0 x y) width with Some e => Some (amp * e)%Q | None => None end.
(* 1431-1437 *)
Definition gaussring (amp width rpos rfrac rwidth x0 y0 : Q) (x y : nat) : option Q :=
  let r2 := r2 x0 y0 x y in
  let d := (sqrtq r2 - rpos)%Q in
  match bell r2 width, bell (d * d) rwidth with
  | Some e, Some f => Some (amp * (e + rfrac * f))%Q
  | _, _ => None
  end.

(* a double set by from_string(params[i], ...) *)
Definition arg (ps : list (list ascii)) (i : nat) : outcome Q :=
  s <- SectModel.at_checked ps i ;;
  match s with
  | [] => UB
  | _ => Ok (match num s with Some q => q | None => 0%Q end)
  end.

(* 1462-1472: the loop; 0 if it does not end early *)
Fixpoint half (t : img (option Q)) (a b : Z) (l : list nat) : outcome nat :=
  match l with
  | [] => Ok 0
  | i :: l =>
      let z := Z.of_nat i in
      p <- at2 t (a - z) b ;; q <- at2 t (a + z) b ;; r <- at2 t a (b - z) ;; s <- at2 t a (b + z) ;;
      if is_zero p && is_zero q && is_zero r && is_zero s then Ok i else half t a b l
  end.
(* 1452-1487 *)
Definition file_psf (n m : nat) (x0 y0 : Q) (name : list ascii) : outcome (img (option Q)) :=
  t <- read name ;;
  k <- omap fst (ReduceModel.min_ greater (pix t)) ;;
  idm <- IndexModel.mult_ids [nr t; nc t] k ;;
  a <- oget idm 0 ;; b <- oget idm 1 ;;
  let imax := Nat.min (Nat.min a (nr t - 1 - a)) (Nat.min b (nc t - 1 - b)) in
  h <- half t (Z.of_nat a) (Z.of_nat b) (seq 1 imax) ;;
  let h := Z.of_nat (if h =? 0 then imax else h) in
  let a := Z.of_nat a in let b := Z.of_nat b in
  t <- subregion t [a - h; b - h; a + h; b + h]%Z (Some 0%Q) ;;
  ix0 <- signed64 (qround x0) ;; iy0 <- signed64 (qround y0) ;;
  t <- translate t (x0 - inject_Z ix0)%Q (y0 - inject_Z iy0)%Q (Some 0%Q) ;;
  p <- filled (Some 0%Q) n m ;;
  r0 <- signed64 (ix0 - h) ;; r1 <- signed64 (iy0 - h) ;; r2 <- signed64 (ix0 + h) ;; r3 <- signed64 (iy0 + h) ;;
  '(idi, idp) <- subregion_ids n m [r0; r1; r2; r3] ;;
  d <- copy_ids (pix t) idp idi (pix p) ;;
  Ok (Img n m d).

(* 1387-1500; n and m are dims *)
Definition make_psf (n m : nat) (x0 y0 : Q) (model : list ascii) (psf : img (option Q)) : outcome (bool * img (option Q)) :=
  ps <- split model [","%char] ;;
  ps <- omapl (fun s => trim s blanks) ps ;;
  p0 <- SectModel.at_checked ps 0 ;;
  if same p0 "gaussian" then
    if length ps <? 3 then Ok (false, psf)
    else
      amp <- arg ps 1 ;; width <- arg ps 2 ;;
      r <- generate_img n m (fun x y => Ok (gaussian amp width x0 y0 x y)) ;; Ok (true, r)
  else if same p0 "gaussring" then
    if length ps <? 6 then Ok (false, psf)
    else
      amp <- arg ps 1 ;; width <- arg ps 2 ;; rpos <- arg ps 3 ;; rfrac <- arg ps 4 ;; rwidth <- arg ps 5 ;;
      r <- generate_img n m (fun x y => Ok (gaussring amp width rpos rfrac rwidth x0 y0 x y)) ;; Ok (true, r)
  else if same p0 "file" then
    if length ps <? 2 then Ok (false, psf)
    else
      name <- SectModel.at_checked ps 1 ;;
      r <- file_psf n m x0 y0 name ;; Ok (true, r)
  else Ok (false, psf).
End Psf.
