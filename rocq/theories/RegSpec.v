(* What regular expressions stand for. *)
From Coq Require Import Ascii String.
From Verif Require Import Base RegModel.
Local Open Scope list_scope.
Local Open Scope nat_scope.

(* the texts that an expression describes *)
Inductive lang : re -> list ascii -> Prop :=
| l_eps : lang Eps []
| l_chars f c : f c = true -> lang (Chars f) [c]
| l_seq a b s t : lang a s -> lang b t -> lang (Seq a b) (s ++ t)
| l_left a b s : lang a s -> lang (Alt a b) s
| l_right a b s : lang b s -> lang (Alt a b) s
| l_star0 a : lang (Star a) []
| l_star a s t : lang a s -> lang (Star a) t -> lang (Star a) (s ++ t).

(* m is an occurrence of the pattern, between x and y *)
Definition occurs (p : pattern) (x m y : list ascii) : Prop :=
  lang (body p) m /\ (bol p = true -> x = []) /\ (eol p = true -> y = []).
(* the first occurrence, and the longest one there *)
Definition first_longest (p : pattern) (x m y : list ascii) : Prop :=
  occurs p x m y /\
  (forall x' m' y', x' ++ m' ++ y' = x ++ m ++ y -> occurs p x' m' y' ->
     List.length x <= List.length x' /\ (x' = x -> List.length m' <= List.length m)).

(* what regexec must give *)
Definition inside (n : nat) (g : option (nat * nat)) : Prop := match g with Some (a, b) => a <= b <= n | None => True end.
Definition sound (exec : list ascii -> option found) : Prop :=
  forall s so eo gs, exec s = Some ((so, eo), gs) -> so <= eo <= List.length s /\ Forall (inside (List.length s)) gs.
(* the text of a group of a match in s; none for a group that is not there *)
Definition group_text (s : list ascii) (gs : list (option (nat * nat))) (i : nat) : list ascii :=
  match nth_error gs i with Some (Some (a, b)) => firstn (b - a) (skipn a s) | _ => [] end.
Definition texts (s : list ascii) (gs : list (option (nat * nat))) (n : nat) : list (list ascii) := map (group_text s gs) (seq 0 n).
(* the successive matches: each one is looked for in what follows the previous one *)
Inductive scan (exec : list ascii -> option found) (n : nat) : list ascii -> list (list ascii * list (list ascii)) -> list ascii -> Prop :=
| scan_end s : exec s = None -> scan exec n s [] s
| scan_next x m y gs l z : exec (x ++ m ++ y) = Some ((List.length x, List.length x + List.length m), gs) ->
    scan exec n y l z -> scan exec n (x ++ m ++ y) ((x, texts (x ++ m ++ y) gs n) :: l) z.

(* the groups of a pattern: an opening parenthesis that is neither escaped nor between brackets *)
Inductive place := Outside | Escaped | Bracket (first : bool).
Fixpoint group_count (st : place) (r : list ascii) : nat :=
  match r with
  | [] => 0
  | c :: r =>
      match st with
      | Outside => if Ascii.eqb c "\"%char then group_count Escaped r
                   else if Ascii.eqb c "["%char then group_count (Bracket true) r
                   else if Ascii.eqb c "("%char then S (group_count Outside r) else group_count Outside r
      | Escaped => group_count Outside r
      | Bracket f => if Ascii.eqb c "]"%char then group_count (if f then Bracket false else Outside) r
                     else group_count (Bracket (f && Ascii.eqb c "^"%char)) r
      end
  end.

(* every occurrence, from left to right, replaced by w *)
Inductive swapped (p : pattern) (w : list ascii) : list ascii -> list ascii -> Prop :=
| swapped_none s : (forall x m y, s = x ++ m ++ y -> ~ occurs p x m y) -> swapped p w s s
| swapped_next x m y r : first_longest p x m y -> swapped p w y r -> swapped p w (x ++ m ++ y) (x ++ w ++ r).
