(* What the cutouts of sources should be. *)
From Coq Require Import QArith.
From Verif Require Import Base.
Local Open Scope nat_scope.

Definition whole (n : nat) : Q := inject_Z (Z.of_nat n).
(* the pixel n that contains q *)
Definition nearest (q : Q) (n : nat) : Prop := (whole n - (1 # 2) <= q)%Q /\ (q < whole n + (1 # 2))%Q.
(* further than h from the limits of the image *)
Definition within (q : Q) (h size : nat) : Prop := (whole h + 1 <= q)%Q /\ (q + whole h < whole size)%Q.
(* the square of 2h+1 pixels around (n,m) *)
Definition square {A} (px : list A) (height n m h : nat) (s : list A) : Prop :=
  length s = (2 * h + 1) * (2 * h + 1) /\
  forall a b, a <= 2 * h -> b <= 2 * h ->
    exists p, nth_error s (a * (2 * h + 1) + b) = Some p /\ nth_error px ((n - h + a) * height + (m - h + b)) = Some p.
Fixpoint ascending (l : list nat) : Prop :=
  match l with a :: ((b :: _) as r) => a < b /\ ascending r | _ => True end.
