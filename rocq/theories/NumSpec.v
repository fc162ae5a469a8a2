(* Independent vocabulary for decimal numbers. *)
From Coq Require Import Ascii.
From Verif Require Import Base StrSpec.
Local Open Scope Z_scope.

Definition decimal_digits : list ascii := ["0"; "1"; "2"; "3"; "4"; "5"; "6"; "7"; "8"; "9"]%char.
Definition white_space : list ascii := [" "; "009"; "010"; "011"; "012"; "013"]%char.
(* the number written by the digit c *)
Definition figure (c : ascii) (k : nat) : Prop := nth_error decimal_digits k = Some c.
(* the digits d, most significant first, write the number n *)
Inductive writes : list ascii -> Z -> Prop :=
| writes_one : forall c k, figure c k -> writes [c] (Z.of_nat k)
| writes_more : forall d n c k, writes d n -> figure c k -> writes (d ++ [c]) (10 * n + Z.of_nat k).
(* a sign and the factor that it stands for *)
Definition sign_text (u : list ascii) (f : Z) : Prop :=
  (u = [] /\ f = 1) \/ (u = ["+"%char] /\ f = 1) \/ (u = ["-"%char] /\ f = -1).
(* s is the integer x, with white space around it *)
Definition int_text (s : list ascii) (x : Z) : Prop :=
  exists a u f d n b, s = a ++ u ++ d ++ b /\ made_of white_space a /\ made_of white_space b /\
    sign_text u f /\ writes d n /\ x = f * n.
(* the digits have no useless zero *)
Definition shortest (d : list ascii) : Prop := d = ["0"%char] \/ exists c r, d = c :: r /\ c <> "0"%char.
(* two letters, or other characters, that are the same but for the case *)
Definition small : list ascii :=
  ["a";"b";"c";"d";"e";"f";"g";"h";"i";"j";"k";"l";"m";"n";"o";"p";"q";"r";"s";"t";"u";"v";"w";"x";"y";"z"]%char.
Definition capital : list ascii :=
  ["A";"B";"C";"D";"E";"F";"G";"H";"I";"J";"K";"L";"M";"N";"O";"P";"Q";"R";"S";"T";"U";"V";"W";"X";"Y";"Z"]%char.
Definition same_letter (a b : ascii) : Prop :=
  a = b \/ exists k, (nth_error small k = Some a /\ nth_error capital k = Some b) \/
                     (nth_error small k = Some b /\ nth_error capital k = Some a).
Definition same_word (u v : list ascii) : Prop := Forall2 same_letter u v.
