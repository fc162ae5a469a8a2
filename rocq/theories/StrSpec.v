(* Independent vocabulary for strings. *)
From Coq Require Import Ascii.
From Verif Require Import Base.
Notation str := (list ascii) (only parsing).

(* p occurs in s at position i *)
Definition occurs_at (p s : str) (i : nat) : Prop := exists a b, s = a ++ p ++ b /\ length a = i.
Definition occurs (p s : str) : Prop := exists i, occurs_at p s i.

(* the pieces of w joined by sep *)
Fixpoint joined (w : list str) (sep : str) : str :=
  match w with
  | [] => []
  | [x] => x
  | x :: t => x ++ sep ++ joined t sep
  end.
(* the positions at which joined puts a separator *)
Fixpoint joints (w : list str) (sep : str) : list nat :=
  match w with
  | [] => []
  | [x] => []
  | x :: t => length x :: map (fun i => length x + length sep + i) (joints t sep)
  end.

(* s cut at the successive leftmost occurrences of p *)
Inductive cut_at (p : str) : str -> list str -> Prop :=
| cut_none : forall s, ~ occurs p s -> cut_at p s [s]
| cut_first : forall a b w, (forall i, occurs_at p (a ++ p ++ b) i -> length a <= i) ->
    cut_at p b w -> cut_at p (a ++ p ++ b) (a :: w).

Definition made_of (chars s : str) : Prop := forall c, In c s -> In c chars.
Definition free_of (chars s : str) : Prop := forall c, In c s -> ~ In c chars.

(* the words of s: the maximal pieces without separator characters *)
Inductive words_of (chars : str) : str -> list str -> Prop :=
| words_none : forall g, made_of chars g -> words_of chars g []
| words_one : forall g w r ws, made_of chars g -> w <> [] -> free_of chars w ->
    (r = [] \/ exists c t, r = c :: t /\ In c chars) ->
    words_of chars r ws -> words_of chars (g ++ w ++ r) (w :: ws).

(* blocks begin ... end, each replaced by a function of what it encloses *)
Inductive blocks_replaced (bg en : str) (f : str -> str) : str -> str -> Prop :=
| no_block : forall s, ~ occurs bg s -> blocks_replaced bg en f s s
| one_block : forall a x b r,
    (forall i, occurs_at bg (a ++ bg ++ x ++ en ++ b) i -> length a <= i) ->
    (forall i, occurs_at en (x ++ en ++ b) i -> length x <= i) ->
    blocks_replaced bg en f b r ->
    blocks_replaced bg en f (a ++ bg ++ x ++ en ++ b) (a ++ f x ++ r).
