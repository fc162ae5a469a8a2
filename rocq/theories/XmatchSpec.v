(* What cross matching is supposed to compute. *)
From Coq Require Export Permutation Sorted.
From Verif Require Import Base XmatchModel.

(* the candidates of source i: the sources at a finite distance, without i itself in self mode *)
Definition candidates (dist : nat -> nat -> option Z) (n2 : nat) (self : bool) (i : nat) : list (Z * nat) :=
  flat_map (fun j => if self && (i =? j) then [] else match dist i j with Some x => [(x, j)] | None => [] end) (seq 0 n2).
(* the nearer first, and the lower index first at equal distances *)
Definition nearer (a b : Z * nat) : Prop := (fst a < fst b)%Z \/ (fst a = fst b /\ snd a < snd b).
(* l lists the n nearest of the candidates, in order, and is filled up to n with None *)
Definition n_nearest (n : nat) (cand : list (Z * nat)) (l : list (option (Z * nat))) : Prop :=
  exists s, Permutation cand s /\ StronglySorted nearer s /\
    l = firstn n (map Some s ++ repeat None n).
(* e is a nearest candidate, or None if there is none *)
Definition is_nearest (cand : list (Z * nat)) (e : option (Z * nat)) : Prop :=
  match e with
  | None => cand = []
  | Some c => In c cand /\ forall c', In c' cand -> (fst c <= fst c')%Z
  end.
(* i and j are each other's match *)
Definition mutual (id rid : list (option nat)) (i j : nat) : Prop :=
  nth_error id i = Some (Some j) /\ nth_error rid j = Some (Some i).
(* the work is split: one thread, or every thread has at least one source *)
Definition split_ok (n1 thread assigned : nat) : Prop :=
  thread <= 1 \/ (2 <= thread /\ 1 <= assigned /\ (thread - 1) * assigned < n1).
