(* Cubic splines.  Source: include/vif/math/interpolate.hpp 272-488.
   Numbers are exact rationals; [None] stands for a result that is not a finite number:
   a division by zero gives it, the other operations propagate it (the special case of a
   finite number divided by an infinity is not tracked).  The element type is double, so
   results are not truncated. *)
From Coq Require Import QArith Qround.
From Verif Require Import Base OrderModel InterpModel.
Local Open Scope nat_scope.

Notation num := (option Q).
Definition lift2 (f : Q -> Q -> Q) (a b : num) : num :=
  match a, b with Some x, Some y => Some (f x y) | _, _ => None end.
Definition fadd := lift2 Qplus.
Definition fsub := lift2 Qminus.
Definition fmul := lift2 Qmult.
Definition fdiv (a b : num) : num :=
  match a, b with Some x, Some y => qdiv x y | _, _ => None end.
Definition fz (z : Q) : num := Some z.
Notation "a +! b" := (fadd a b) (at level 50, left associativity).
Notation "a -! b" := (fsub a b) (at level 50, left associativity).
Notation "a *! b" := (fmul a b) (at level 40, left associativity).
Notation "a /! b" := (fdiv a b) (at level 40, left associativity).
Definition zeros (n : nat) : list num := repeat (fz 0) n.

(* v.safe[i] on the (finite) input *)
Definition get (l : list Q) (i : nat) : outcome num := q <- oget l i ;; Ok (Some q).

(* interpolate.hpp 280-283: h *)
Definition sp_h (n : nat) (x : list Q) : outcome (list num) :=
  ofold (fun h i => x1 <- get x (i + 1) ;; x0 <- get x i ;; oset h i (x1 -! x0)) (seq 0 n) (zeros n).

(* interpolate.hpp 285-289: al; both differences are divided by h[i] *)
Definition sp_al (n : nat) (y : list Q) (h : list num) : outcome (list num) :=
  ofold (fun al i =>
    y1 <- get y (i + 1) ;; y0 <- get y i ;; ym <- get y (i - 1) ;; hi <- oget h i ;;
    oset al i (fz 3 *! (y1 -! y0) /! hi -! fz 3 *! (y0 -! ym) /! hi)) (seq 1 (n - 1)) (zeros n).

(* interpolate.hpp 291-297: forward sweep; l is only used in its own iteration *)
Definition sp_sweep (n : nat) (x : list Q) (h al : list num) : outcome (list num * list num) :=
  ofold (fun '(mu, z) i =>
    x1 <- get x (i + 1) ;; xm <- get x (i - 1) ;; hm <- oget h (i - 1) ;; mum <- oget mu (i - 1) ;;
    let li := fz 2 *! (x1 -! xm) -! hm *! mum in
    hi <- oget h i ;; mu <- oset mu i (hi /! li) ;;
    ali <- oget al i ;; zm <- oget z (i - 1) ;; z <- oset z i ((ali -! hm *! zm) /! li) ;;
    Ok (mu, z)) (seq 1 (n - 1)) (zeros (n + 1), zeros (n + 1)).

(* interpolate.hpp 299-308: backward substitution *)
Definition sp_back (n : nat) (y : list Q) (h mu z : list num) : outcome (list num * list num * list num) :=
  ofold (fun '(b, c, d) i =>
    zi <- oget z i ;; mui <- oget mu i ;; c1 <- oget c (i + 1) ;; hi <- oget h i ;;
    y1 <- get y (i + 1) ;; y0 <- get y i ;;
    let ci := zi -! mui *! c1 in
    c <- oset c i ci ;;
    b <- oset b i ((y1 -! y0) /! hi -! fz (1#3) *! hi *! (c1 +! fz 2 *! ci)) ;;
    d <- oset d i (fz (1#3) *! (c1 -! ci) /! hi) ;;
    Ok (b, c, d)) (rev (seq 0 n)) (zeros (n + 1), zeros (n + 1), zeros (n + 1)).

(* interpolate.hpp 272-312; the callers have checked y.size() >= 2 *)
Definition sp_coefs (y x : list Q) : outcome (list num * list num * list num) :=
  let n := length y - 1 in
  h <- sp_h n x ;;
  al <- sp_al n y h ;;
  '(mu, z) <- sp_sweep n x h al ;;
  '(b, c, d) <- sp_back n y h mu z ;;
  bm <- oget b (n - 1) ;; cm <- oget c (n - 1) ;; dm <- oget d (n - 1) ;;
  xn <- get x n ;; xm <- get x (n - 1) ;;
  b <- oset b n (bm +! fz 2 *! cm *! (xn -! xm) +! fz 3 *! dm *! ((xn -! xm) *! (xn -! xm))) ;;
  Ok (b, c, d).

(* interpolate.hpp 314-346: the same for nodes 0, 1, 2, ... *)
Definition sp_coefs_u (y : list Q) : outcome (list num * list num * list num) :=
  let n := length y - 1 in
  al <- ofold (fun al i =>
    y1 <- get y (i + 1) ;; y0 <- get y i ;; ym <- get y (i - 1) ;;
    oset al i (fz 3 *! (y1 -! y0) -! fz 3 *! (y0 -! ym))) (seq 1 (n - 1)) (zeros n) ;;
  '(mu, z) <- ofold (fun '(mu, z) i =>
    mum <- oget mu (i - 1) ;;
    let li := fz 4 -! mum in
    mu <- oset mu i (fz 1 /! li) ;;
    ali <- oget al i ;; zm <- oget z (i - 1) ;; z <- oset z i ((ali -! zm) /! li) ;;
    Ok (mu, z)) (seq 1 (n - 1)) (zeros (n + 1), zeros (n + 1)) ;;
  '(b, c, d) <- ofold (fun '(b, c, d) i =>
    zi <- oget z i ;; mui <- oget mu i ;; c1 <- oget c (i + 1) ;;
    y1 <- get y (i + 1) ;; y0 <- get y i ;;
    let ci := zi -! mui *! c1 in
    c <- oset c i ci ;;
    b <- oset b i ((y1 -! y0) -! fz (1#3) *! (c1 +! fz 2 *! ci)) ;;
    d <- oset d i (fz (1#3) *! (c1 -! ci)) ;;
    Ok (b, c, d)) (rev (seq 0 n)) (zeros (n + 1), zeros (n + 1), zeros (n + 1)) ;;
  bm <- oget b (n - 1) ;; cm <- oget c (n - 1) ;; dm <- oget d (n - 1) ;;
  b <- oset b n (bm +! fz 2 *! cm +! fz 3 *! dm) ;;
  Ok (b, c, d).

(* v[k] is bound-checked here *)
Definition at_ {A} (l : list A) (k : nat) : outcome A :=
  match nth_error l k with Some a => Ok a | None => CheckFail end.

(* interpolate.hpp 373-376, 404-407, 430-431, 455-456: the cubic of piece k *)
Definition sp_cubic (y : list Q) (co : list num * list num * list num) (k : nat) (th : num) : outcome num :=
  let '(b, c, d) := co in
  yk <- at_ y k ;; bk <- at_ b k ;; ck <- at_ c k ;; dk <- at_ d k ;;
  Ok (fz yk +! bk *! th +! ck *! th *! th +! dk *! th *! th *! th).
(* interpolate.hpp 370-372, 401-403, 426-427, 451-452: before the first node *)
Definition sp_before (y : list Q) (co : list num * list num * list num) (th : num) : outcome num :=
  let '(b, _, _) := co in
  y0 <- at_ y 0 ;; b0 <- at_ b 0 ;; Ok (fz y0 +! b0 *! th).

Definition sp_eval (y x : list Q) (co : list num * list num * list num) (t : Q) : outcome num :=
  k <- lower_bound qlt x t ;;
  match k with
  | None => x0 <- at_ x 0 ;; sp_before y co (fz t -! fz x0)
  | Some k => xk <- at_ x k ;; sp_cubic y co k (fz t -! fz xk)
  end.

(* interpolate.hpp 387-408 *)
Definition spline_point (y x : list Q) (t : Q) : outcome num :=
  _ <- check (length y =? length x) ;;
  _ <- check (2 <=? length y) ;;
  co <- sp_coefs y x ;; sp_eval y x co t.
(* interpolate.hpp 354-380 *)
Definition spline_vec (y x ts : list Q) : outcome (list num) :=
  _ <- check (length y =? length x) ;;
  _ <- check (2 <=? length y) ;;
  co <- sp_coefs y x ;; omapl (sp_eval y x co) ts.

(* int_t k = floor(t): outside the 64-bit integers the conversion is undefined *)
Definition floor64 (t : Q) : outcome Z := signed64 (Qfloor t).

(* interpolate.hpp 424-432, 449-457 *)
Definition sp_eval_u (y : list Q) (co : list num * list num * list num) (t : Q) : outcome num :=
  k <- floor64 t ;;
  if (k <? 0)%Z then sp_before y co (fz t)
  else
    let n := length y - 1 in
    let k := if (Z.of_nat n <? k)%Z then n else Z.to_nat k in
    sp_cubic y co k (fz t -! fz (inject_Z (Z.of_nat k))).
(* interpolate.hpp 441-458 *)
Definition spline_point_u (y : list Q) (t : Q) : outcome num :=
  _ <- check (2 <=? length y) ;;
  co <- sp_coefs_u y ;; sp_eval_u y co t.
(* interpolate.hpp 413-436 *)
Definition spline_vec_u (y ts : list Q) : outcome (list num) :=
  _ <- check (2 <=? length y) ;;
  co <- sp_coefs_u y ;; omapl (sp_eval_u y co) ts.

(* map.safe(i,j): the flat index is computed modulo 2^64 *)
Definition map_at (d1 : nat) (data : list Q) (i j : Z) : outcome Q :=
  let f := wrap64 (i * Z.of_nat d1 + j) in
  if (f <? Z.of_nat (length data))%Z then oget data (Z.to_nat f) else UB.

(* interpolate.hpp 464-488: bicubic_strict.  The 4 values of a line are finite numbers. *)
Definition bicubic (d0 d1 : nat) (data : list Q) (x y : Q) (def : Q) : outcome num :=
  tix <- floor64 x ;; tiy <- floor64 y ;;
  if (tix <=? 0)%Z || (wrap64 (Z.of_nat d0 - 2) <=? tix)%Z ||
     (tiy <=? 0)%Z || (wrap64 (Z.of_nat d1 - 2) <=? tiy)%Z
  then Ok (Some def)
  else
    tmpx <- omapl (fun ix =>
      tmpy <- omapl (fun iy => map_at d1 data (Z.of_nat ix + tix - 1) (Z.of_nat iy + tiy - 1)) (seq 0 4) ;;
      spline_point_u tmpy (y - inject_Z tiy + 1)%Q) (seq 0 4) ;;
    match tmpx with
    | [Some a; Some b; Some c; Some d] => spline_point_u [a; b; c; d] (x - inject_Z tix + 1)%Q
    | _ => Ok None
    end.
