(* The sum that approximates the convolution integral. *)
From Coq Require Import QArith.
From Verif Require Import Base.
Local Open Scope nat_scope.

Fixpoint qsum (f : nat -> Q) (n : nat) : Q :=
  match n with O => 0 | S m => qsum f m + f m end%Q.

(* the width attached to sample i: the distance to the previous one, or to the next for the first *)
Definition width (x : nat -> Q) (i : nat) : Q :=
  match i with O => (x 1%nat - x 0%nat)%Q | S j => (x (S j) - x j)%Q end.

(* the samples of a list as a function of the index *)
Definition samples (l : list Q) (i : nat) : Q := nth i l 0%Q.

Definition shifted (x : list Q) (s : Q) : list Q := map (fun t => t + s)%Q x.
