(* How the sources are shared between threads. *)
From Verif Require Import Base.

(* every thread gets at least one source *)
Definition shared (n thread assigned : nat) : Prop :=
  2 <= thread /\ 1 <= assigned /\ (thread - 1) * assigned < n.
