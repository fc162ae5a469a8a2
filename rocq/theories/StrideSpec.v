(* What a strided traversal visits. *)
From Verif Require Import Base IndexSpec StrideModel.
Local Open Scope nat_scope.

(* one index list per element visited: pre, then k, then post *)
Definition line (pre post : list nat) (d : nat) : list (list nat) :=
  map (fun k => pre ++ k :: post) (seq 0 d).
