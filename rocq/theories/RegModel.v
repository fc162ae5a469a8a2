(* Regular expressions.  Source: include/vif/utility/bits/string-regex.hpp (line numbers below).
   regcomp and regexec are those of POSIX.  Two readings of them are used:
   - for a pattern that is known, its syntax tree, between the anchors ^ and $, with the leftmost of the longest
     matches; the reading of the text of the pattern by regcomp is not modelled;
   - for any pattern, regexec is a parameter, which gives the first and the last position of the match and
     those of the groups (None for a group that takes no part in the match).
   Texts hold no null character; the memory of the compiled pattern is not modelled. *)
From Coq Require Import Ascii String.
From Verif Require Import Base.
Local Open Scope list_scope.
Local Open Scope nat_scope.
Notation length := List.length.
Notation str := (list ascii) (only parsing).
Definition lit (s : string) : str := list_ascii_of_string s.

Inductive re := Eps | Nul | Chars (f : ascii -> bool) | Seq (a b : re) | Alt (a b : re) | Star (a : re).
Definition Plus (a : re) : re := Seq a (Star a).
Definition Opt (a : re) : re := Alt a Eps.
Definition Text (s : string) : re := fold_right (fun c r => Seq (Chars (Ascii.eqb c)) r) Eps (lit s).
Record pattern := Pattern { bol : bool; body : re; eol : bool }.

Fixpoint nullable (r : re) : bool :=
  match r with
  | Eps => true | Nul => false | Chars _ => false
  | Seq a b => nullable a && nullable b
  | Alt a b => nullable a || nullable b
  | Star _ => true
  end.
Fixpoint deriv (c : ascii) (r : re) : re :=
  match r with
  | Eps | Nul => Nul
  | Chars f => if f c then Eps else Nul
  | Seq a b => if nullable a then Alt (Seq (deriv c a) b) (deriv c b) else Seq (deriv c a) b
  | Alt a b => Alt (deriv c a) (deriv c b)
  | Star a => Seq (deriv c a) (Star a)
  end.
Fixpoint accepts (r : re) (s : str) : bool := match s with [] => nullable r | c :: s => accepts (deriv c r) s end.
Fixpoint longest (r : re) (s : str) : option nat :=
  let stop := if nullable r then Some 0 else None in
  match s with
  | [] => stop
  | c :: s => match longest (deriv c r) s with Some n => Some (S n) | None => stop end
  end.
Definition here (p : pattern) (s : str) : option nat :=
  if eol p then (if accepts (body p) s then Some (length s) else None) else longest (body p) s.
Fixpoint search_from (p : pattern) (s : str) (pos : nat) : option (nat * nat) :=
  match here p s with
  | Some n => Some (pos, pos + n)
  | None => if bol p then None else match s with [] => None | _ :: s => search_from p s (S pos) end
  end.
Definition search (p : pattern) (s : str) : option (nat * nat) := search_from p s 0.

(* 57-63 *)
Definition regex_match (s : str) (p : pattern) : bool := match search p s with Some _ => true | None => false end.
(* 65-76 and 78-89 *)
Definition regex_match_vec (l : list str) (p : pattern) : list bool := map (fun s => regex_match s p) l.
Definition regex_match_pats (s : str) (l : list pattern) : list bool := map (fun p => regex_match s p) l.

(* 41-53 *)
Definition backslash : ascii := "\"%char.
Definition opens (r : str) (p : nat) : bool :=
  match nth_error r p with
  | Some c => Ascii.eqb c "("%char &&
      ((p =? 0) || match nth_error r (p - 1) with Some d => negb (Ascii.eqb d backslash) | None => false end)
  | None => false
  end.
Definition find_nmatch (r : str) : nat := length (filter (opens r) (seq 0 (length r))).

Definition found := ((nat * nat) * list (option (nat * nat)))%type.
Section Exec.
Variable exec : str -> option found.
Variable nmatch : nat.
(* m[i+1]; the entries that regexec does not use are (-1, -1) *)
Definition group (gs : list (option (nat * nat))) (i : nat) : Z * Z :=
  match nth_error gs i with Some (Some (a, b)) => (Z.of_nat a, Z.of_nat b) | _ => (-1, -1)%Z end.
(* ts.substr(pos, n) with unsigned arguments *)
Definition sub (ts : str) (pos n : Z) : outcome str :=
  let pos := wrap64 pos in
  if (Z.of_nat (length ts) <? pos)%Z then Throws else Ok (firstn (Z.to_nat (wrap64 n)) (skipn (Z.to_nat pos) ts)).

(* 101-119; the same match is found again for ever if it is empty and at the very beginning *)
Fixpoint extract_loop (fuel : nat) (ts : str) (off : nat) (ret : list (list str)) : outcome (list (list str)) :=
  match fuel with
  | 0 => Diverge
  | S fuel =>
      match exec (skipn off ts) with
      | None => Ok ret
      | Some ((so, eo), gs) =>
          row <- omapl (fun i =>
                   let '(a, b) := group gs i in
                   if (a <? b)%Z then sub ts (Z.of_nat off + a) (b - a) else Ok []) (seq 0 nmatch) ;;
          if eo =? 0 then Diverge else extract_loop fuel ts (off + eo) (ret ++ [row])
      end
  end.
(* 91-122 *)
Definition regex_extract (ts : str) : outcome (list (list str)) :=
  if nmatch =? 0 then Ok [] else extract_loop (S (length ts)) ts 0 [].

(* 137-152 *)
Variable func : list str -> str.
Fixpoint replace_loop (fuel : nat) (ts : str) (off : nat) (s : str) : outcome str :=
  match fuel with
  | 0 => Diverge
  | S fuel =>
      match exec (skipn off ts) with
      | None => r <- sub ts (Z.of_nat off) (Z.of_nat (length ts)) ;; Ok (s ++ r)
      | Some ((so, eo), gs) =>
          pre <- sub ts (Z.of_nat off) (Z.of_nat so) ;;
          ext <- omapl (fun i => let '(a, b) := group gs i in sub ts (Z.of_nat off + a) (b - a)) (seq 0 nmatch) ;;
          if eo =? 0 then Diverge else replace_loop fuel ts (off + eo) (s ++ pre ++ func ext)
      end
  end.
(* 124-155 *)
Definition regex_replace (ts : str) : outcome str := replace_loop (S (length ts)) ts 0 [].
End Exec.
(* the match of a pattern without groups *)
Definition exec_of (p : pattern) (s : str) : option found := option_map (fun m => (m, [])) (search p s).
