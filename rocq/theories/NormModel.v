(* Normalised sky coordinates.  Source: include/vif/astro/astro.hpp 135-167
   (normalize_coordinates).  Numbers are exact rationals, infinities and NaN. *)
From Coq Require Import QArith.
From Verif Require Import Base.
Local Open Scope nat_scope.

Inductive coord := Fin (q : Q) | Inf (negative : bool) | Nan.
(* a < x and x < a, for a constant a *)
Definition below (a : Q) (x : coord) : bool :=
  match x with Fin q => negb (Qle_bool q a) | Inf neg => negb neg | Nan => false end.
Definition above (x : coord) (a : Q) : bool :=
  match x with Fin q => negb (Qle_bool a q) | Inf neg => neg | Nan => false end.
(* x + a and a - x *)
Definition plus (x : coord) (a : Q) : coord := match x with Fin q => Fin (q + a)%Q | x => x end.
Definition from (a : Q) (x : coord) : coord :=
  match x with Fin q => Fin (a - q)%Q | Inf neg => Inf (negb neg) | Nan => Nan end.

Fixpoint while {S} (fuel : nat) (test : S -> bool) (step : S -> S) (s : S) : outcome S :=
  match fuel with
  | O => Diverge
  | S fuel => if test s then while fuel test step (step s) else Ok s
  end.
(* 138-156; every loop may take fuel steps *)
Definition normalize (fuel : nat) (p : coord * coord) : outcome (coord * coord) :=
  p <- while fuel (fun p => below 90 (snd p)) (fun p => (plus (fst p) 180, from 180 (snd p))) p ;;
  p <- while fuel (fun p => above (snd p) (-90)) (fun p => (plus (fst p) 180, from (-180) (snd p))) p ;;
  p <- while fuel (fun p => below 360 (fst p)) (fun p => (plus (fst p) (-360), snd p)) p ;;
  while fuel (fun p => above (fst p) 0) (fun p => (plus (fst p) 360, snd p)) p.
(* 158-167: both vectors with their dimensions *)
Definition normalize_all (fuel : nat) (ra dec : list nat * list coord) : outcome (list (coord * coord)) :=
  _ <- check (if list_eq_dec Nat.eq_dec (fst ra) (fst dec) then true else false) ;;
  omapl (fun i => r <- oget (snd ra) i ;; d <- oget (snd dec) i ;; normalize fuel (r, d)) (seq 0 (length (snd ra))).
