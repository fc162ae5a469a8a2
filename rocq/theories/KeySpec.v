(* What the functions on the keywords of a FITS header should do: the header seen as a list of
   cards. *)
From Coq Require Import Ascii.
From Verif Require Import Base StrSpec.

Notation str := (list ascii) (only parsing).
Definition white : str := [" "; "009"; "010"; "013"]%char.
(* t is s without the blanks at both ends *)
Definition bare (t : str) : Prop := (forall c u, t = c :: u -> ~ In c white) /\ (forall u c, t = u ++ [c] -> ~ In c white).
Definition stripped (s t : str) : Prop := exists a b, s = a ++ t ++ b /\ made_of white a /\ made_of white b /\ bare t.

(* the name and the text of the value of a card: NAME = value / comment *)
Definition named (c k : str) : Prop := exists a b, c = a ++ "="%char :: b /\ ~ In "="%char a /\ stripped a k.
Definition valued (c t : str) : Prop := exists a b v, c = a ++ "="%char :: b /\ ~ In "="%char a /\
  (b = v \/ exists w, b = v ++ "/"%char :: w) /\ ~ In "/"%char v /\ stripped v t.
(* the text after the first slash of the value, if there is a slash *)
Definition remark (c : str) (o : option str) : Prop := exists a b, c = a ++ "="%char :: b /\ ~ In "="%char a /\
  match o with
  | Some w => exists v, b = v ++ "/"%char :: w /\ ~ In "/"%char v
  | None => ~ In "/"%char b
  end.

Definition cards (l : list str) : Prop := forall c, In c l -> length c = 80.
(* the card END; a header ends with it, or has no END in its last card *)
Definition end_card : str := ["E"; "N"; "D"]%char ++ repeat " "%char 77.
Definition closing (body tail : list str) : Prop :=
  tail = [end_card] \/ (tail = [] /\ forall b c, body = b ++ [c] -> ~ occurs ["E"; "N"; "D"]%char c).

(* the first card with a name *)
Definition first_named (l : list str) (k : str) (p : list str) (c : str) (q : list str) : Prop :=
  l = p ++ c :: q /\ named c k /\ forall d, In d p -> ~ named d k.
(* the text of the value of key k in a header, None if the key is not there *)
Definition lookup (l : list str) (k : str) (o : option str) : Prop :=
  match o with
  | Some t => exists p c q, first_named l k p c q /\ valued c t
  | None => forall d, In d l -> ~ named d k
  end.

(* the card that is written *)
Definition entry (k v : str) (com : option str) : str :=
  k ++ repeat " "%char (8 - length k) ++ ["="; " "]%char ++ v ++ match com with Some w => [" "; "/"]%char ++ w | None => [] end.
Definition padded (n : nat) (s : str) : str := s ++ repeat " "%char (n - length s).
