(* C124: what is expected of stacks and of their bootstrap. *)
From Coq Require Import QArith Qround.
From Verif Require Import Base.
Local Open Scope nat_scope.

(* rounding of double precision: integers that fit are kept, the relative error is at most 2^-53 and a rounded
   number is kept *)
Definition double_rounding (rnd : Q -> Q) : Prop :=
  (forall a b, (a == b)%Q -> (rnd a == rnd b)%Q) /\
  (forall z, (Z.abs z <= 2 ^ 53)%Z -> (rnd (inject_Z z) == inject_Z z)%Q) /\
  (forall x, (rnd (rnd x) == rnd x)%Q) /\
  (forall x, (0 <= x)%Q -> (x * (1 - (1 # 2 ^ 53)) <= rnd x /\ rnd x <= x * (1 + (1 # 2 ^ 53)))%Q).
(* random numbers from 0 to the largest double below 1 *)
Definition uniform (u : nat -> Q) : Prop := forall i, (0 <= u i)%Q /\ (u i <= 1 - (1 # 2 ^ 53))%Q.
(* the source taken with the i-th random number *)
Definition source (rnd : Q -> Q) (u : nat -> Q) (nsrc i : nat) : nat :=
  Z.to_nat (Qfloor (rnd (u i * inject_Z (Z.of_nat nsrc))%Q)).
(* pixel p of image i among images of np pixels *)
Definition pixel {A} (np : nat) (l : list A) (i p : nat) : option A := if p <? np then nth_error l (i * np + p) else None.
(* the values of pixel p of the images with the given numbers *)
Fixpoint values {A} (np : nat) (l : list A) (ids : list nat) (p : nat) : list A :=
  match ids with
  | [] => []
  | i :: t => match pixel np l i p with Some x => x :: values np l t p | None => values np l t p end
  end.
Fixpoint qtotal (l : list Q) : Q := match l with [] => 0%Q | x :: t => (x + qtotal t)%Q end.
