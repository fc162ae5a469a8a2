(* C106: what is expected of filter databases. *)
From Coq Require Import Ascii.
From Verif Require Import Base StrSpec.
Local Open Scope list_scope.

Definition blank_chars : list ascii := [" "; "009"; "010"; "013"]%char.
(* t is line without the blanks at both ends *)
Definition stripped (line t : list ascii) : Prop :=
  (exists a b, line = a ++ t ++ b /\ made_of blank_chars a /\ made_of blank_chars b) /\
  (t = [] \/ (exists c u, t = c :: u /\ ~ In c blank_chars) /\ (exists u c, t = u ++ [c] /\ ~ In c blank_chars)).
(* the line says k=v *)
Definition says (line k v : list ascii) : Prop :=
  exists t, stripped line t /\ (forall u, t <> "#"%char :: u) /\ t = k ++ "="%char :: v /\ ~ In "="%char k /\ ~ In "="%char v.
Definition lines (content : list ascii) (l : list (list ascii)) : Prop := cut_at ["010"%char] content l.
(* v is the first value given to k by the lines *)
Definition first_said (l : list (list ascii)) (k v : list ascii) : Prop :=
  exists i line, nth_error l i = Some line /\ says line k v /\ forall j line' v', (j < i)%nat -> nth_error l j = Some line' -> ~ says line' k v'.
(* the number of places where two texts differ, after the end included *)
Definition differ (a b : list ascii) (d : nat) : Prop :=
  exists f, (forall i, f i = true <-> nth_error a i <> nth_error b i) /\ d = length (filter f (seq 0 (Nat.max (length a) (length b)))).
