(* Vocabulary for the angular correlation: pairs of sources by separation. *)
From Coq Require Import QArith List.
Import ListNotations.
Local Open Scope nat_scope.

Section Pairs.
Context {P : Type} (dist : P -> P -> option Q).
Definition within (lo hi : Q) (t : option Q) : bool :=
  match t with Some q => Qle_bool lo q && negb (Qle_bool hi q) | None => false end.
(* number of pairs of a source of a and a source of b with a separation in [lo, hi) *)
Definition pairs (lo hi : Q) (a b : list P) : nat :=
  length (filter (fun xy => within lo hi (dist (snd xy) (fst xy))) (list_prod a b)).
(* the same for the sources of one list, without the pairs of a source with itself *)
Definition distinct_pairs (lo hi : Q) (a : list P) : nat :=
  length (filter (fun ij => negb (fst ij =? snd ij) &&
    match nth_error a (fst ij), nth_error a (snd ij) with Some x, Some y => within lo hi (dist y x) | _, _ => false end)
    (list_prod (seq 0 (length a)) (seq 0 (length a)))).
End Pairs.
