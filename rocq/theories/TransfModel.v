(* Translation, scaling and rotation of an image.  Source: include/vif/astro/image.hpp 126-155 and
   179-260.

   Simplifications.  Positions are exact rationals, hence finite.  A pixel value is [option Q],
   where None stands for every value that is not finite.  The cosine and the sine of the angle are
   parameters.  The value given outside of the image has the type of the pixels. *)
From Coq Require Import QArith.
From Verif Require Import Base ImageModel GenModel DrizModel RegridModel.
From Verif Require SplineModel.
Local Open Scope nat_scope.

(* the loops over the pixels; y counts lines *)
Definition each_pixel {A} (n m : nat) (e : nat -> nat -> outcome A) (r : list A) : outcome (img A) :=
  r <- ofold (fun r y => ofold (fun r x => z <- e y x ;; pset m r y x z) (seq 0 m) r) (seq 0 n) r ;;
  Ok (Img n m r).

(* 126-137; here x counts lines *)
Definition translate (v : img (option Q)) (dx dy : Q) (def : option Q) : outcome (img (option Q)) :=
  trs <- filled (Some 0%Q) (nr v) (nc v) ;;
  each_pixel (nr v) (nc v) (fun x y => bilinear_strict v (qn x - dx)%Q (qn y - dy)%Q def) (pix trs).

(* interpolate_3spline(v, t): if one of the values is not finite, all the coefficients of the spline
   of order 2 are not finite (or, for two values, those of order 1), nor is any result *)
Definition spline_row (v : list (option Q)) (t : list Q) : outcome (list (option Q)) :=
  match all_some v with
  | Some l => SplineModel.spline_vec_u l t
  | None => _ <- check (2 <=? length v) ;; Ok (map (fun _ => None) t)
  end.
(* trs.safe(x,_) = r; trs.safe(_,y) = r *)
Definition put_line (m : nat) (p : list (option Q)) (x : nat) (r : list (option Q)) : outcome (list (option Q)) :=
  ofold (fun p y => z <- oget r y ;; pset m p x y z) (seq 0 m) p.
Definition put_column (n m : nat) (p : list (option Q)) (y : nat) (r : list (option Q)) : outcome (list (option Q)) :=
  ofold (fun p x => z <- oget r x ;; pset m p x y z) (seq 0 n) p.
(* 139-155; def is not used *)
Definition translate_bicubic (v : img (option Q)) (dx dy : Q) (def : option Q) : outcome (img (option Q)) :=
  let n := nr v in let m := nc v in
  let t := map (fun y => qn y - dy)%Q (seq 0 m) in
  p <- ofold (fun p x =>
         l <- omapl (fun y => oget p (x * m + y)) (seq 0 m) ;;
         r <- spline_row l t ;; put_line m p x r) (seq 0 n) (pix v) ;;
  let t := map (fun x => qn x - dx)%Q (seq 0 n) in
  p <- ofold (fun p y =>
         l <- omapl (fun x => oget p (x * m + y)) (seq 0 n) ;;
         r <- spline_row l t ;; put_column n m p y r) (seq 0 m) p ;;
  Ok (Img n m p).

(* y - int_t(d/2) *)
Definition from_mid (d y : nat) : Q := inject_Z (Z.of_nat y - Z.of_nat (d / 2)).
(* (y-int_t(d/2))/factor + d/2; a division by zero gives a number that is not finite, whose
   conversion to an integer is not defined *)
Definition scaled (d : nat) (factor : Q) (y : nat) : outcome Q :=
  if Qeq_bool factor 0 then UB else Ok (from_mid d y / factor + qn (d / 2))%Q.
(* 179-195 *)
Definition scale (v : img (option Q)) (factor : Q) (def : option Q) : outcome (img (option Q)) :=
  each_pixel (nr v) (nc v) (fun y x =>
    py <- scaled (nr v) factor y ;; px <- scaled (nc v) factor x ;; bilinear_strict v py px def) (pix v).
(* 197-213 *)
Definition scale_bicubic (v : img (option Q)) (factor : Q) (def : option Q) : outcome (img (option Q)) :=
  each_pixel (nr v) (nc v) (fun y x =>
    py <- scaled (nr v) factor y ;; px <- scaled (nc v) factor x ;; bicubic_strict v py px def) (pix v).

(* 231-232, 254-255 *)
Definition turned_y (v : img (option Q)) (ca sa : Q) (y x : nat) : Q :=
  (from_mid (nr v) y * ca - from_mid (nc v) x * sa + qn (nr v / 2))%Q.
Definition turned_x (v : img (option Q)) (ca sa : Q) (y x : nat) : Q :=
  (from_mid (nc v) x * ca + from_mid (nr v) y * sa + qn (nc v / 2))%Q.
(* 215-236 *)
Definition rotate (v : img (option Q)) (ca sa : Q) (def : option Q) : outcome (img (option Q)) :=
  each_pixel (nr v) (nc v) (fun y x =>
    bilinear_strict v (turned_y v ca sa y x) (turned_x v ca sa y x) def) (pix v).
(* 238-259 *)
Definition rotate_bicubic (v : img (option Q)) (ca sa : Q) (def : option Q) : outcome (img (option Q)) :=
  each_pixel (nr v) (nc v) (fun y x =>
    bicubic_strict v (turned_y v ca sa y x) (turned_x v ca sa y x) def) (pix v).
