(* Independent vocabulary for histograms. *)
From Coq Require Import QArith Permutation.
From Verif Require Import Base.
Local Open Scope nat_scope.

(* what std::partition guarantees *)
Definition partitions {A} (part : nat -> (A -> bool) -> list A -> list A * list A) : Prop :=
  forall k p l, let '(yes, no) := part k p l in
    Permutation (yes ++ no) l /\ (forall x, In x yes -> p x = true) /\ (forall x, In x no -> p x = false).

(* t lies in [lower, upper) *)
Definition inside (t : option Q) (b : Q * Q) : Prop :=
  exists q, t = Some q /\ (fst b <= q)%Q /\ (q < snd b)%Q.

(* bin i is the first one that contains t *)
Definition first_bin (bins : list (Q * Q)) (t : option Q) (i : nat) : Prop :=
  (exists b, nth_error bins i = Some b /\ inside t b) /\
  forall j b, j < i -> nth_error bins j = Some b -> ~ inside t b.

(* the bins follow each other without gap or overlap *)
Definition contiguous (bins : list (Q * Q)) : Prop :=
  (forall b, In b bins -> (fst b <= snd b)%Q) /\
  forall k a b, nth_error bins k = Some a -> nth_error bins (k + 1) = Some b -> (snd a == fst b)%Q.

(* suffix sums *)
Definition zsum_from (i : nat) (y : list Z) : Z := fold_right Z.add 0%Z (skipn i y).
Definition zsum_upto (i : nat) (y : list Z) : Z := fold_right Z.add 0%Z (firstn (i + 1) y).
