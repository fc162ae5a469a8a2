(* Integration of a function (Romberg's method) and clipping of outliers.
   Sources: include/vif/math/reduce.hpp 881-916 (integrate_func) and 255-266 (sigma_clip).
   Arithmetic is exact; the function to integrate always returns a finite number. *)
From Coq Require Import QArith Qabs.
From Verif Require Import Base OrderModel ReduceModel.
Local Open Scope nat_scope.

(* 1 << n in an int: undefined from 31 on *)
Definition shl1 (n : nat) : outcome Z := if n <? 31 then Ok (2 ^ Z.of_nat n)%Z else UB.
(* buffer.back() *)
Definition back (b : list Q) : outcome Q := oget b (length b - 1).
(* 914: abs((x - y)/x) > e, where x is the last value and y the one before.  0/0 is NaN, and then
   the comparison is false; y/0 is infinite *)
Definition goes_on (x y e : Q) : bool :=
  if Qeq_bool x 0 then negb (Qeq_bool y 0) else negb (Qle_bool (Qabs ((x - y) / x)) e).

Section Function.
Variable f : Q -> Q.
Variables x0 x1 e : Q.

(* 895-897: the sum over the new points *)
Definition new_points (d : Q) (k : nat) : Q :=
  fold_left (fun tr k => tr + f (x0 + inject_Z (2 * Z.of_nat k - 1) * d))%Q (seq 1 k) 0%Q.
(* 890-913: one round *)
Definition round (n : nat) (buffer : list Q) (oid : nat) : outcome (list Q) :=
  tn <- shl1 n ;;
  let d := ((x1 - x0) / inject_Z tn)%Q in
  let tr := new_points d (Z.to_nat (tn / 2)) in
  o <- oget buffer oid ;;
  ofold (fun b m =>
      t <- shl1 (2 * m) ;; l <- back b ;; p <- oget b (oid + m - 1) ;;
      Ok (b ++ [((inject_Z t * l - p) / inject_Z (t - 1))%Q]))
    (seq 1 n) (buffer ++ [((1 # 2) * o + d * tr)%Q]).
(* 889-915: do ... while; n and oid are the values at the beginning of the round.  At most [fuel]
   rounds *)
Fixpoint rounds (fuel n : nat) (buffer : list Q) (oid : nat) : outcome Q :=
  match fuel with
  | 0 => Diverge
  | S fuel =>
      b <- round (S n) buffer oid ;;
      x <- back b ;; y <- oget b (length b - 2) ;;
      if goes_on x y e then rounds fuel (S n) b (oid + S n) else Ok x
  end.
(* 881-916.  No execution gets further than 31 rounds, since 1 << 31 is undefined *)
Definition integrate_func : outcome Q :=
  rounds 31 0 [((1 # 2) * (x1 - x0) * (f x0 + f x1))%Q] 0.
End Function.

(* 255-266.  [perm] is what std::nth_element makes of the vector.  Comparisons with NaN are false.
   The vector of integers is the case without NaN *)
Definition abs_diff (x med : fnum) : fnum :=
  match x, med with Num a, Num b => Num (Z.abs (a - b)) | _, _ => NaN end.
Definition within (sigma : Q) (mad x : fnum) : bool :=
  match x, mad with
  | Num a, Num m => Qle_bool (inject_Z a) (sigma * ((148 # 100) * inject_Z m))
  | _, _ => false
  end.
Definition sigma_clip (perm : list fnum -> list fnum) (tv : list fnum) (sigma : Q) : outcome (list bool) :=
  med <- median tv ;;
  mad <- median (map (fun x => abs_diff x med) (perm tv)) ;;
  Ok (map (fun x => within sigma mad (abs_diff x med)) tv).
