(* Bilinear interpolation of maps.  Source: include/vif/math/interpolate.hpp 156-268.
   Numbers are exact rationals (element type double). *)
From Coq Require Import QArith Qround.
From Verif Require Import Base OrderModel InterpModel SplineModel.
Local Open Scope nat_scope.

(* interpolate.hpp 156-158 *)
Definition bilin4 (v1 v2 v3 v4 x y : Q) : Q :=
  (v1 * (1 - x) * (1 - y) + v2 * (1 - x) * y + v3 * x * (1 - y) + v4 * x * y)%Q.

(* interpolate.hpp 167-173 and 175-181: the line of the lower corner, for a dimension of size d;
   the dimension is unsigned, tix is signed *)
Definition clamp_line (d : nat) (tix : Z) : Z :=
  if (tix <? 0)%Z then 0%Z
  else if (wrap64 (Z.of_nat d - 1) <=? tix)%Z then to_signed64 (wrap64 (Z.of_nat d - 2))
  else tix.

(* interpolate.hpp 186-187 and 244-245 *)
Definition corners (d1 : nat) (data : list Q) (ix iy : Z) (dx dy : Q) : outcome Q :=
  v1 <- map_at d1 data ix iy ;; v2 <- map_at d1 data ix (iy + 1) ;;
  v3 <- map_at d1 data (ix + 1) iy ;; v4 <- map_at d1 data (ix + 1) (iy + 1) ;;
  Ok (bilin4 v1 v2 v3 v4 dx dy).

(* interpolate.hpp 160-188 *)
Definition bilinear (d0 d1 : nat) (data : list Q) (x y : Q) : outcome Q :=
  tix <- floor64 x ;; tiy <- floor64 y ;;
  let tix := clamp_line d0 tix in
  let tiy := clamp_line d1 tiy in
  corners d1 data tix tiy (x - inject_Z tix)%Q (y - inject_Z tiy)%Q.

(* indgen<double>(n) *)
Definition indgen (n : nat) : list Q := map (fun i => inject_Z (Z.of_nat i)) (seq 0 n).

(* the conversion of a number that is not finite to an integer is undefined *)
Definition bilinear_num (d0 d1 : nat) (data : list Q) (ux uy : option Q) : outcome Q :=
  match ux, uy with Some ux, Some uy => bilinear d0 d1 data ux uy | _, _ => UB end.

(* interpolate.hpp 190-202 *)
Definition bilinear_grid (d0 d1 : nat) (data mx my : list Q) (x y : Q) : outcome Q :=
  _ <- check (d0 =? length mx) ;;
  _ <- check (d1 =? length my) ;;
  ux <- interp_point [length mx] [length mx] (indgen (length mx)) mx x ;;
  uy <- interp_point [length my] [length my] (indgen (length my)) my y ;;
  bilinear_num d0 d1 data ux uy.

(* interpolate.hpp 204-225; [dx], [dy] are the dimensions of the lists of positions *)
Definition bilinear_grid_vec (d0 d1 : nat) (data mx my : list Q) (dx dy : list nat) (x y : list Q) : outcome (list Q) :=
  _ <- check (d0 =? length mx) ;;
  _ <- check (d1 =? length my) ;;
  _ <- check (if list_eq_dec Nat.eq_dec dx dy then true else false) ;;
  ux <- interp_vec (indgen (length mx)) mx x ;;
  uy <- interp_vec (indgen (length my)) my y ;;
  ofold (fun v i => a <- oget ux i ;; b <- oget uy i ;; z <- bilinear_num d0 d1 data a b ;; oset v i z)
    (seq 0 (length x)) (repeat 0%Q (length x)).

(* interpolate.hpp 228-246 *)
Definition bilinear_strict (d0 d1 : nat) (data : list Q) (x y def : Q) : outcome Q :=
  tix <- floor64 x ;; tiy <- floor64 y ;;
  if (tix <? 0)%Z || (wrap64 (Z.of_nat d0 - 1) <=? tix)%Z ||
     (tiy <? 0)%Z || (wrap64 (Z.of_nat d1 - 1) <=? tiy)%Z
  then Ok def
  else corners d1 data tix tiy (x - inject_Z tix)%Q (y - inject_Z tiy)%Q.

(* interpolate.hpp 248-268; the result has one line for every x and one column for every y *)
Definition rebin (d0 d1 : nat) (data mx my x y : list Q) : outcome (list Q) :=
  _ <- check (d0 =? length mx) ;;
  _ <- check (d1 =? length my) ;;
  ux <- interp_vec (indgen (length mx)) mx x ;;
  uy <- interp_vec (indgen (length my)) my y ;;
  ofold (fun v ix =>
    ofold (fun v iy =>
      a <- oget ux ix ;; b <- oget uy iy ;; z <- bilinear_num d0 d1 data a b ;;
      oset v (ix * length y + iy) z) (seq 0 (length y)) v)
    (seq 0 (length x)) (repeat 0%Q (length x * length y)).
