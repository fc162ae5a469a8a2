(* What a user expects of a segmentation. *)
From Verif Require Import Base ImageModel ImageSpec.

(* the value of a pixel (y,x); None outside the image *)
Definition at_ {A} (v : img A) (p : nat * nat) : option A := px v (Z.of_nat (fst p)) (Z.of_nat (snd p)).
(* pixels that share a side *)
Definition adj (p q : nat * nat) : Prop :=
  (Z.abs (Z.of_nat (fst p) - Z.of_nat (fst q)) + Z.abs (Z.of_nat (snd p) - Z.of_nat (snd q)) = 1)%Z.
(* p comes before q, row by row *)
Definition before (p q : nat * nat) : Prop := fst p < fst q \/ fst p = fst q /\ snd p < snd q.
(* a path of pixels of P from p to q, each sharing a side with the next *)
Inductive conn (P : nat * nat -> Prop) (p : nat * nat) : nat * nat -> Prop :=
| conn_refl : P p -> conn P p p
| conn_step q r : conn P p q -> adj q r -> P r -> conn P p r.
(* E lists, once each, the pairs of pixels of P that share a side *)
Definition sides (P : nat * nat -> Prop) (E : list ((nat * nat) * (nat * nat))) : Prop :=
  NoDup E /\ forall p q, In (p, q) E <-> P p /\ P q /\ adj p q /\ before p q.
(* l lists the pixels of P once each *)
Definition lists_pixels (P : nat * nat -> Prop) (l : list (nat * nat)) : Prop :=
  NoDup l /\ forall p, In p l <-> P p.
