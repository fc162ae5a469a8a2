(* What the choice of sections and bands should be. *)
From Coq Require Import Ascii String.
From Verif Require Import Base.
From Verif Require RegModel RegSpec.
Local Open Scope list_scope.
Local Open Scope nat_scope.

(* a file made of lines, each one ended by a newline, except perhaps the last *)
Inductive text_of : list (list ascii) -> list ascii -> Prop :=
| text_nil : text_of [] []
| text_last l : l <> [] -> ~ In "010"%char l -> text_of [l] l
| text_line l ls s : ~ In "010"%char l -> text_of ls s -> text_of (l :: ls) (l ++ "010"%char :: s).
(* the lines that name a file: not empty, no comment *)
Definition names (l : list ascii) : Prop := l <> [] /\ forall r, l <> "#"%char :: r.
Inductive chosen : list (list ascii) -> list (list ascii) -> Prop :=
| chosen_nil : chosen [] []
| chosen_yes l ls r : names l -> chosen ls r -> chosen (l :: ls) (l :: r)
| chosen_no l ls r : ~ names l -> chosen ls r -> chosen (l :: ls) r.

(* the pattern is found in the text *)
Definition found_in (p : RegModel.pattern) (s : list ascii) : Prop := exists x m y, s = x ++ m ++ y /\ RegSpec.occurs p x m y.
Definition at_place (P : list ascii -> Prop) (l : list (list ascii)) (i : nat) : Prop := exists s, nth_error l i = Some s /\ P s.
Definition the_only (P : nat -> Prop) (i : nat) : Prop := P i /\ forall j, P j -> j = i.
