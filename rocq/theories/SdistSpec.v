(* What a user expects of the expansion of segments. *)
From Verif Require Import Base ImageModel SegSpec.

(* the square of the distance between two pixels *)
Definition dist2 (p q : nat * nat) : Z :=
  let dy := (Z.of_nat (fst p) - Z.of_nat (fst q))%Z in let dx := (Z.of_nat (snd p) - Z.of_nat (snd q))%Z in
  (dy * dy + dx * dx)%Z.
(* the number of steps between them, along rows and columns *)
Definition steps (p q : nat * nat) : Z :=
  (Z.abs (Z.of_nat (fst p) - Z.of_nat (fst q)) + Z.abs (Z.of_nat (snd p) - Z.of_nat (snd q)))%Z.
Definition inside {A} (v : img A) (p : nat * nat) : Prop := fst p < nr v /\ snd p < nc v.
(* p belongs to the segment id *)
Definition member (v : img nat) (id : nat) (p : nat * nat) : Prop := at_ v p = Some id /\ id <> 0.
