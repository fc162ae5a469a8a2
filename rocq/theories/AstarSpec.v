(* What a user expects of astar_find. *)
From Verif Require Import Base VecModel IndexSpec VecSpec.

(* Manhattan distance between cells: number of steps to a 4-neighbour *)
Definition absdiff (a b : nat) : nat := (a - b) + (b - a).
Definition manhattan (p q : nat * nat) : nat := absdiff (fst p) (fst q) + absdiff (snd p) (snd q).

(* the start position, moved inside the map *)
Definition clamped (d0 d1 x y : nat) : nat * nat := (Nat.min x (d0 - 1), Nat.min y (d1 - 1)).

Definition true_cell (m : vec bool) (d0 d1 : nat) (p : nat * nat) : Prop :=
  fst p < d0 /\ snd p < d1 /\ elem m [fst p; snd p] = Some true.
