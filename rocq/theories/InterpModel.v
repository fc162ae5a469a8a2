(* Linear interpolation.  Source: include/vif/math/interpolate.hpp 11-153.
   Numbers are exact rationals; [None] stands for a result that is not a finite number
   (division by zero gives an infinity or NaN, which later operations propagate). *)
From Coq Require Import QArith.
From Verif Require Import Base OrderModel.
Local Open Scope nat_scope.

Definition qlt (a b : Q) : bool := negb (Qle_bool b a).
Definition qdiv (a b : Q) : option Q := if Qeq_bool b 0%Q then None else Some (Qdiv a b).

(* interpolate.hpp 11-14 *)
Definition interp (y1 y2 x1 x2 x : Q) : option Q :=
  match qdiv (x - x1)%Q (x2 - x1)%Q with
  | Some a => Some (y1 + (y2 - y1) * a)%Q
  | None => None
  end.

(* interpolate.hpp 38-55 and 82-98: the choice of the two nodes *)
Definition pick (low : option nat) (nmax : nat) : nat * nat :=
  match low with
  | Some k => if k =? nmax - 1 then (k - 1, k) else (k, k + 1)
  | None => (0, 1)
  end.

(* interpolate.hpp 80-100, the part shared by the point and vector versions; the last line
   multiplies before it divides *)
Definition interp_at (y x : list Q) (t : Q) : outcome (option Q) :=
  low <- lower_bound qlt x t ;;
  let '(i, j) := pick low (length x) in
  ylow <- oget y i ;; yup <- oget y j ;; xlow <- oget x i ;; xup <- oget x j ;;
  Ok (match qdiv ((yup - ylow) * (t - xlow))%Q (xup - xlow)%Q with
      | Some a => Some (ylow + a)%Q
      | None => None
      end).

(* interpolate.hpp 69-101 *)
Definition interp_point (ydims xdims : list nat) (y x : list Q) (t : Q) : outcome (option Q) :=
  _ <- check (if list_eq_dec Nat.eq_dec ydims xdims then true else false) ;;
  _ <- check (2 <=? length y) ;;
  interp_at y x t.
(* interpolate.hpp 25-62 *)
Definition interp_vec (y x nx : list Q) : outcome (list (option Q)) :=
  _ <- check (length y =? length x) ;;
  _ <- check (2 <=? length y) ;;
  omapl (fun t => interp_at y x t) nx.

(* interpolate.hpp 109-153, without the square root: the pair (value, squared error).
   The size of e is not checked. *)
Definition interp_at_err (y e x : list Q) (t : Q) : outcome (option (Q * Q)) :=
  low <- lower_bound qlt x t ;;
  let '(i, j) := pick low (length x) in
  ylow <- oget y i ;; yup <- oget y j ;;
  elow <- oget e i ;; eup <- oget e j ;;
  xlow <- oget x i ;; xup <- oget x j ;;
  Ok (match qdiv (t - xlow)%Q (xup - xlow)%Q with
      | Some a => Some (ylow + (yup - ylow) * a,
                        (elow * (1 - a)) * (elow * (1 - a)) + (eup * a) * (eup * a))%Q
      | None => None
      end).
Definition interp_vec_err (ydims xdims : list nat) (y e x nx : list Q) : outcome (list (option (Q * Q))) :=
  _ <- check (if list_eq_dec Nat.eq_dec ydims xdims then true else false) ;;
  _ <- check (2 <=? length y) ;;
  omapl (fun t => interp_at_err y e x t) nx.
