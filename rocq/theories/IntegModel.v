(* Trapezoid integration.  Source: include/vif/math/reduce.hpp 687-879.
   Numbers are exact rationals; [None] is a result that is not a finite number
   (InterpModel.v). *)
From Coq Require Import QArith.
From Verif Require Import Base OrderModel InterpModel.
Local Open Scope nat_scope.

(* range(1, n): 1 ... n-1, but range(1, 0) counts downwards and yields 1 (C01) *)
Definition from_one (n : nat) : list nat := match n with O => [1] | _ => seq 1 (n - 1) end.
(* 0.5*(y[j]+y[i])*(x[j]-x[i]) *)
Definition trapezoid (x y : list Q) (i j : nat) : outcome Q :=
  yj <- oget y j ;; yi <- oget y i ;; xj <- oget x j ;; xi <- oget x i ;;
  Ok ((1 # 2) * (yj + yi) * (xj - xi))%Q.

(* reduce.hpp 687-702 *)
Definition integrate (x y : list Q) : outcome Q :=
  _ <- check (length x =? length y) ;;
  ofold (fun r i => t <- trapezoid x y (i - 1) i ;; Ok (r + t)%Q) (from_one (length x)) 0%Q.

(* reduce.hpp 704-721: x has dimensions [d0; d1] and row-major data *)
Definition integrate_binned (d0 d1 : nat) (x y : list Q) : outcome Q :=
  _ <- check (d0 =? 2) ;;
  _ <- check (d1 =? length y) ;;
  ofold (fun r i => yi <- oget y i ;; hi <- oget x (i + d1) ;; lo <- oget x i ;; Ok (r + yi * (hi - lo))%Q)
    (seq 0 d1) 0%Q.

Definition oadd (a : option Q) (b : option Q) : option Q :=
  match a, b with Some x, Some y => Some (x + y)%Q | _, _ => None end.

(* reduce.hpp 743-759 and 841-859: both bounds located *)
Definition between (x y : list Q) (i0 i1 : nat) (x0 x1 : Q) : outcome (option Q) :=
  if i1 <? i0 then
    ya <- oget y i1 ;; yb <- oget y i0 ;; xa <- oget x i1 ;; xb <- oget x i0 ;;
    Ok (match interp ya yb xa xb x0, interp ya yb xa xb x1 with
        | Some y0, Some y1 => Some ((1 # 2) * (y0 + y1) * (x1 - x0))%Q
        | _, _ => None
        end)
  else
    r <- ofold (fun r i => t <- trapezoid x y i (i + 1) ;; Ok (r + t)%Q) (seq i0 (i1 - i0)) 0%Q ;;
    r0 <- (if 0 <? i0 then
             ya <- oget y (i0 - 1) ;; yb <- oget y i0 ;; xa <- oget x (i0 - 1) ;; xb <- oget x i0 ;;
             Ok (match interp ya yb xa xb x0 with
                 | Some y0 => Some ((1 # 2) * (yb + y0) * (xb - x0))%Q
                 | None => None
                 end)
           else Ok (Some 0%Q)) ;;
    r1 <- (if i1 <? length x - 1 then
             ya <- oget y i1 ;; yb <- oget y (i1 + 1) ;; xa <- oget x i1 ;; xb <- oget x (i1 + 1) ;;
             Ok (match interp ya yb xa xb x1 with
                 | Some y1 => Some ((1 # 2) * (y1 + ya) * (x1 - xa))%Q
                 | None => None
                 end)
           else Ok (Some 0%Q)) ;;
    Ok (oadd (oadd (Some r) r0) r1).

(* the checks 729-735 and 801-807 *)
Definition bound_checks (x y : list Q) (x0 x1 : Q) : outcome unit :=
  _ <- check (length x =? length y) ;;
  _ <- check (negb (length y =? 0)) ;;
  front <- oget x 0 ;; _ <- check (Qle_bool front x0) ;;
  back <- oget x (length x - 1) ;; check (Qle_bool x1 back).

(* reduce.hpp 723-761.  A bound that is npos is used as a subscript right away. *)
Definition integrate_bounds (x y : list Q) (x0 x1 : Q) : outcome (option Q) :=
  _ <- bound_checks x y x0 x1 ;;
  i0 <- upper_bound qlt x x0 ;; i1 <- lower_bound qlt x x1 ;;
  match i0, i1 with
  | Some i0, Some i1 => between x y i0 i1 x0 x1
  | _, _ => UB
  end.

(* the loops 814-816, 821-823, 826-828: while (i < n-1 && x[i+1] <= t) ++i; *)
Fixpoint advance (fuel : nat) (x : list Q) (t : Q) (i : nat) : outcome nat :=
  match fuel with
  | O => Diverge
  | S f =>
      if i <? length x - 1 then
        a <- oget x (i + 1) ;;
        if Qle_bool a t then advance f x t (i + 1) else Ok i
      else Ok i
  end.
(* reduce.hpp 795-861; the hint is None for npos; returns the integral and the new hint *)
Definition integrate_hinted (x y : list Q) (ihint : option nat) (x0 x1 : Q) : outcome (option Q * nat) :=
  _ <- bound_checks x y x0 x1 ;;
  match ihint with
  | None =>
      i0 <- upper_bound qlt x x0 ;;
      match i0 with
      | None => UB            (* y.safe[npos] *)
      | Some i0 =>
          if i0 =? 0 then UB  (* i1 = npos - not reached, since x.front() <= x0 *)
          else
          i1 <- advance (S (length x)) x x1 (i0 - 1) ;;
          r <- between x y i0 i1 x0 x1 ;; Ok (r, i1)
      end
  | Some h =>
      i0 <- advance (S (length x)) x x0 h ;;
      i1 <- advance (S (length x)) x x1 i0 ;;
      let i0 := if i0 =? length x - 1 then i0 else i0 + 1 in
      r <- between x y i0 i1 x0 x1 ;; Ok (r, i1)
  end.

(* reduce.hpp 763-793 *)
Definition integrate_binned_bounds (d0 d1 : nat) (x y : list Q) (x0 x1 : Q) : outcome Q :=
  _ <- check (d0 =? 2) ;;
  _ <- check (d1 =? length y) ;;
  _ <- check (negb (length y =? 0)) ;;
  front <- oget x 0 ;; back <- oget x (length x - 1) ;;
  _ <- check (Qle_bool front x0 && Qle_bool x1 back) ;;
  i0 <- upper_bound qlt (firstn d1 x) x0 ;; i1 <- lower_bound qlt (firstn d1 x) x1 ;;
  match i0, i1 with
  | _, None => UB
  | None, Some i1 => yi <- oget y i1 ;; Ok (yi * (x1 - x0))%Q
  | Some i0, Some i1 =>
      if i1 <? i0 then yi <- oget y i1 ;; Ok (yi * (x1 - x0))%Q
      else
        r <- ofold (fun r i => yi <- oget y i ;; hi <- oget x (i + d1) ;; lo <- oget x i ;; Ok (r + yi * (hi - lo))%Q)
               (seq i0 (i1 - i0)) 0%Q ;;
        y0 <- oget y i0 ;; lo0 <- oget x i0 ;;
        y1 <- oget y i1 ;; lo1 <- oget x i1 ;;
        Ok (r + y0 * (lo0 - x0) + y1 * (x1 - lo1))%Q
  end.

(* reduce.hpp 863-879: dr starts as zeros *)
Definition cumul_xy (x y : list Q) : outcome (list Q) :=
  _ <- check (length x =? length y) ;;
  omap snd (ofold (fun '(r, dr) i =>
      t <- trapezoid x y (i - 1) i ;;
      dr <- oset dr i (r + t)%Q ;; Ok ((r + t)%Q, dr)) (from_one (length x)) (0%Q, repeat 0%Q (length y))).
