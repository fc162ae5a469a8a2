(* What the correction of headers should do. *)
From Coq Require Import Ascii String.
From Verif Require Import Base StrSpec HdrModel HdrSpec.
Local Open Scope list_scope.
Local Open Scope nat_scope.

Definition number (s : list ascii) : Prop :=
  s <> [] /\ forall c, In c s -> In c ["0"; "1"; "2"; "3"; "4"; "5"; "6"; "7"; "8"; "9"]%char.
Definition is_unit_key (k : list ascii) : Prop := exists n, k = ["C"; "U"; "N"; "I"; "T"]%char ++ n /\ number n.
Definition is_lookup_key (k : list ascii) : Prop :=
  exists c n, (c = "P" \/ c = "Q")%char /\ k = ["C"; c; "D"; "I"; "S"]%char ++ n /\ number n.
(* A_1_2, AP_1_2, A_ORDER, AP_ORDER, and the same for B *)
Definition is_sip_key (k : list ascii) : Prop :=
  exists c p t, (c = "A" \/ c = "B")%char /\ (p = [] \/ p = ["P"%char]) /\ k = c :: p ++ "_"%char :: t /\
    ((exists i j, t = i ++ "_"%char :: j /\ number i /\ number j) \/ t = ["O"; "R"; "D"; "E"; "R"]%char).
Definition error_words : list (list ascii) := [["E"; "R"; "R"]; ["D"; "I"; "S"]; ["E"; "X"; "T"]]%char.
Definition is_distortion_key (k : list ascii) : Prop :=
  exists w n, k = w ++ n /\ number n /\
    (In w [["D"; "P"]; ["D"; "Q"]; ["D"; "2"; "I"; "M"]]%char \/
     exists a b, w = a ++ b /\ In a [["C"; "P"]; ["C"; "Q"]; ["D"; "2"; "I"; "M"]]%char /\ In b error_words).
(* neither the first nor the last character is one of these *)
Definition core (cs s : list ascii) : Prop := (forall c t, s = c :: t -> ~ In c cs) /\ (forall u c, s = u ++ [c] -> ~ In c cs).
Definition contains (w s : list ascii) : Prop := exists x y, s = x ++ w ++ y.

(* the value without quotes and blanks around it *)
Definition plain (v t : list ascii) : Prop :=
  exists a b, v = a ++ t ++ b /\ made_of ["'"; " "]%char a /\ made_of ["'"; " "]%char b /\ core ["'"; " "]%char t.
Definition microns : list (list ascii) := [["m";"i";"c";"r";"o";"n"]; ["m";"i";"c";"r";"o";"n";"s"]]%char.
Definition degrees : list (list ascii) := [["d";"e";"g";"r";"e";"e"]; ["d";"e";"g";"r";"e";"e";"s"]]%char.
Inductive unit_value : list ascii -> list ascii -> Prop :=
| unit_um v t : plain v t -> In t microns -> unit_value v ["'"; "u"; "m"; "'"]%char
| unit_deg v t : plain v t -> In t degrees -> unit_value v ["'"; "d"; "e"; "g"; "'"]%char
| unit_other v t : plain v t -> ~ In t microns -> ~ In t degrees -> unit_value v v.
Inductive fixed : keyword -> keyword -> Prop :=
| fixed_unit k v : is_unit_key (key k) -> unit_value (value k) v -> fixed k (Keyword (key k) v (comment k) (novalue k))
| fixed_other k : ~ is_unit_key (key k) -> fixed k k.
(* the keywords that are left out *)
Definition uses_lookup (ks : list keyword) : Prop :=
  exists k, In k ks /\ is_lookup_key (key k) /\ contains ["L"; "o"; "o"; "k"; "u"; "p"]%char (value k).
Definition dropped (ks : list keyword) (k : keyword) : Prop :=
  is_sip_key (key k) \/ (uses_lookup ks /\ is_distortion_key (key k)).
Inductive kept_only (P : keyword -> Prop) : list keyword -> list keyword -> Prop :=
| kept_nil : kept_only P [] []
| kept_yes k l l' : ~ P k -> kept_only P l l' -> kept_only P (k :: l) (k :: l')
| kept_no k l l' : P k -> kept_only P l l' -> kept_only P (k :: l) l'.
Definition cured (ks ks' : list keyword) : Prop := exists l, Forall2 fixed ks l /\ kept_only (dropped ks) l ks'.
