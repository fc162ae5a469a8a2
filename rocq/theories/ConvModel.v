(* Convolution of two sampled functions.  Source: include/vif/math/transform.hpp 9-33.
   Numbers are exact rationals; None is a result that is not finite (see InterpModel). *)
From Coq Require Import QArith.
From Verif Require Import Base InterpModel.
Local Open Scope nat_scope.

Definition qadd (a b : option Q) : option Q :=
  match a, b with Some a, Some b => Some (a + b)%Q | _, _ => None end.

(* transform.hpp 24-26 *)
Definition conv_dx (x : list Q) (i : nat) : outcome Q :=
  dx <- oget x i ;;
  if i =? 0 then n <- oget x (i + 1) ;; Ok (n - dx)%Q
  else p <- oget x (i - 1) ;; Ok (dx - p)%Q.

(* transform.hpp 28-29: r += y1[i]*tmp*dx *)
Definition conv_add (r tmp : list (option Q)) (y dx : Q) : list (option Q) :=
  map (fun p => qadd (fst p) (option_map (fun t => y * t * dx)%Q (snd p))) (combine r tmp).

Definition convolve (x y1 y2 : list Q) : outcome (list (option Q)) :=
  _ <- check (length x =? length y1) ;;
  _ <- check (length x =? length y2) ;;
  _ <- check (3 <? length x) ;;
  ofold (fun r i =>
      dx <- conv_dx x i ;;
      xi <- oget x i ;;
      tmp <- interp_vec y2 (map (fun t => t + xi)%Q x) x ;;
      y <- oget y1 i ;;
      _ <- check (length r =? length tmp) ;;
      Ok (conv_add r tmp y dx))
    (seq 0 (length x)) (repeat (Some 0%Q) (length x)).
