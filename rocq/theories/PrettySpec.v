(* C126: what is expected of the names in a backtrace. *)
From Coq Require Import Ascii String.
From Verif Require Import Base StrSpec.
Open Scope nat_scope.
Open Scope list_scope.

(* the number of open brackets after x, none once all are closed *)
Fixpoint level (d : nat) (x : str) : option nat :=
  match x with
  | [] => Some d
  | c :: t =>
      if Ascii.eqb c "<" then level (S d) t
      else if Ascii.eqb c ">" then match d with S (S d') => level (S d') t | _ => None end
      else level d t
  end.
(* a word without the blanks around it *)
Definition trimmed (s m : str) : Prop :=
  (exists a b, s = a ++ m ++ b /\ made_of [" "; "009"]%char a /\ made_of [" "; "009"]%char b) /\
  (m = [] \/ (exists c t, m = c :: t /\ ~ In c [" "; "009"]%char) /\ (exists t c, m = t ++ [c] /\ ~ In c [" "; "009"]%char)).
Definition void : str := ["v"; "o"; "i"; "d"]%char.
(* the arguments without blanks, and without a void at the end *)
Definition arguments (x t : str) : Prop :=
  exists w ts, cut_at [","%char] x w /\ Forall2 trimmed w ts /\
    ((exists l, ts = l ++ [void] /\ t = joined l [","%char]) \/ ((forall l, ts <> l ++ [void]) /\ t = joined ts [","%char])).
(* all templates with tidy arguments; the last may never be closed *)
Inductive tidied : str -> str -> Prop :=
| tidied_none : forall s, ~ In "<"%char s -> tidied s s
| tidied_one : forall a x b t r, ~ In "<"%char a -> level 1 x = Some 1 -> arguments x t -> tidied b r ->
    tidied (a ++ ["<"%char] ++ x ++ [">"%char] ++ b) (a ++ ["<"%char] ++ t ++ [">"%char] ++ r)
| tidied_open : forall a x d t, ~ In "<"%char a -> level 1 x = Some d -> arguments (removelast x) t ->
    tidied (a ++ ["<"%char] ++ x) (a ++ ["<"%char] ++ t ++ [">"%char]).
Definition digit (c : ascii) : bool := existsb (Ascii.eqb c) ["0"; "1"; "2"; "3"; "4"; "5"; "6"; "7"; "8"; "9"]%char.
(* without the "ul" after a digit; prev is the character before s *)
Fixpoint no_suffix (prev : option ascii) (s : str) : str :=
  match s with
  | [] => []
  | c :: t =>
      match t with
      | [] => [c]
      | d :: t' =>
          if (Ascii.eqb c "u" && Ascii.eqb d "l")%bool then
            if match prev with Some p => digit p | None => false end then no_suffix (Some d) t' else c :: d :: no_suffix (Some d) t'
          else c :: no_suffix (Some c) t
      end
  end.
