(* Independent vocabulary for lists of expressions. *)
From Coq Require Import Ascii.
From Verif Require Import Base StrSpec.
Local Open Scope nat_scope.

Definition bracket_pair (o c : ascii) : Prop :=
  (o = "(" /\ c = ")")%char \/ (o = "[" /\ c = "]")%char \/ (o = "{" /\ c = "}")%char.
Definition brackets : list ascii := ["("; "["; "{"; ")"; "]"; "}"]%char.
(* a text whose brackets match, the characters of [ban] being allowed only inside of brackets *)
Inductive nested (ban : list ascii) : list ascii -> Prop :=
| nested_nil : nested ban []
| nested_char : forall c r, ~ In c brackets -> ~ In c ban -> nested ban r -> nested ban (c :: r)
| nested_group : forall o c b r, bracket_pair o c -> nested [] b -> nested ban r -> nested ban (o :: b ++ c :: r).
(* an expression: its commas are inside of brackets *)
Definition expression (w : list ascii) : Prop := nested [","%char] w.

(* the part of a name after its first dot, if any *)
Inductive baked : list ascii -> list ascii -> Prop :=
| baked_same : forall t, ~ In "."%char t -> baked t t
| baked_cut : forall a t, ~ In "."%char a -> baked (a ++ "."%char :: t) t.
(* the names of the columns of one argument, [num] being the text of a number *)
Inductive column_names (num : nat -> list ascii) (n : list ascii) : option nat -> list (list ascii) -> Prop :=
| names_one : column_names num n None [n]
| names_many : forall k, 0 < k -> column_names num n (Some k) (map (fun j => n ++ "_"%char :: num j) (seq 1 k)).
Inductive header_names (num : nat -> list ascii) : list (list ascii) -> list (option nat) -> list (list ascii) -> Prop :=
| header_nil : header_names num [] [] []
| header_cons : forall n a ns args h hs, column_names num n a h -> header_names num ns args hs ->
    header_names num (n :: ns) (a :: args) (h ++ hs).
Definition gaps : list ascii := [" "; "009"]%char.
