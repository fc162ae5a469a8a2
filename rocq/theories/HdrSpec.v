(* What the parsing of FITS headers should do. *)
From Coq Require Import Ascii String.
From Verif Require Import Base StrSpec KeySpec HdrModel.
Local Open Scope list_scope.
Local Open Scope nat_scope.

Definition starts_with (p s : list ascii) : Prop := exists r, s = p ++ r.
Definition history : list ascii := ["H"; "I"; "S"; "T"; "O"; "R"; "Y"; " "]%char.
Definition continuation : list ascii := ["C"; "O"; "N"; "T"; "I"; "N"; "U"; "E"; " "]%char.
Definition hierarch : list ascii := ["H"; "I"; "E"; "R"; "A"; "R"; "C"; "H"; " "]%char.
Definition free (cs s : list ascii) : Prop := forall c, In c cs -> ~ In c s.

(* value and comment in the text after the equal sign *)
Definition splits (r v com : list ascii) : Prop :=
  (exists s w, stripped r (["'"%char] ++ s ++ ["'"%char] ++ w) /\ ~ In "'"%char s /\ v = ["'"%char] ++ s ++ ["'"%char] /\ stripped w com) \/
  (* a quote that is not closed *)
  (exists s, stripped r ("'"%char :: s) /\ ~ In "'"%char s /\ v = "'"%char :: s /\ com = []) \/
  (exists u w, stripped r (u ++ w) /\ ~ starts_with ["'"%char] (u ++ w) /\ ~ In "/"%char u /\
     (w = [] \/ starts_with ["/"%char] w) /\ stripped u v /\ com = w).
(* the keyword that a card stands for; continuations excepted *)
Definition reads (line : list ascii) (k : keyword) : Prop :=
  (starts_with history line /\ stripped line (key k) /\ value k = [] /\ comment k = [] /\ novalue k = true) \/
  (~ starts_with history line /\ ~ starts_with continuation line /\
   ((free ["="; "/"]%char line /\ stripped line (key k) /\ value k = [] /\ comment k = [] /\ novalue k = true) \/
    (exists a b, line = a ++ "/"%char :: b /\ free ["="; "/"]%char a /\ stripped a (key k) /\ value k = [] /\
       stripped ("/"%char :: b) (comment k) /\ novalue k = true) \/
    (exists a b, line = a ++ "="%char :: b /\ free ["="; "/"]%char a /\ stripped a (key k) /\ splits b (value k) (comment k) /\ novalue k = false))).

(* keywords that can be written and read back *)
Definition lpadded (n : nat) (s : list ascii) : list ascii := repeat " "%char (n - List.length s) ++ s.
Definition quoted (v : list ascii) : Prop := exists s, v = ["'"%char] ++ s ++ ["'"%char] /\ ~ In "'"%char s.
Definition note (c : list ascii) : list ascii := match c with [] => [] | _ => " "%char :: c end.
Inductive laid : keyword -> list ascii -> Prop :=
  | laid_bare k : novalue k = true -> laid k (padded 30 (key k) ++ note (comment k))
  | laid_long k : novalue k = false -> starts_with hierarch (key k) ->
      laid k (key k ++ [" "; "="; " "]%char ++ value k ++ note (comment k))
  | laid_quoted k : novalue k = false -> ~ starts_with hierarch (key k) -> starts_with ["'"%char] (value k) ->
      laid k (padded 8 (key k) ++ ["="; " "]%char ++ padded 20 (value k) ++ note (comment k))
  | laid_plain k : novalue k = false -> ~ starts_with hierarch (key k) -> ~ starts_with ["'"%char] (value k) ->
      laid k (padded 8 (key k) ++ ["="; " "]%char ++ lpadded 20 (value k) ++ note (comment k)).
Definition normal (k : keyword) : Prop :=
  bare (key k) /\ bare (comment k) /\ (exists t, laid k t /\ List.length t <= 80) /\
  match novalue k with
  | true => value k = [] /\
      ((starts_with history (key k ++ [" "%char]) /\ comment k = []) \/
       (~ starts_with history (key k ++ [" "%char]) /\ ~ starts_with continuation (key k ++ [" "%char]) /\
        free ["="; "/"]%char (key k) /\ (comment k = [] \/ starts_with ["/"%char] (comment k))))
  | false => ~ starts_with history (key k ++ [" "%char]) /\ ~ starts_with continuation (key k) /\
      free ["="; "/"]%char (key k) /\
      (quoted (value k) \/
       (bare (value k) /\ ~ In "/"%char (value k) /\ ~ starts_with ["'"%char] (value k) /\ (comment k = [] \/ starts_with ["/"%char] (comment k))))
  end.

(* a string that goes on in the next card ends with an ampersand, which is left out *)
Definition joint (u u' : list ascii) : Prop := u = u' ++ ["&"%char] \/ (u = u' /\ forall w, u <> w ++ ["&"%char]).

(* the names of the keywords on the astrometry begin with one of these; END is kept too *)
Definition astrometric : list (list ascii) :=
  [["R";"A"]; ["D";"E";"C"]; ["E";"P";"O";"C";"H"]; ["E";"Q";"U";"I";"N";"O";"X"]; ["S";"E";"C";"P";"I";"X"]; ["I";"M";"W";"C";"S"];
   ["C";"D";"1";"_";"1"]; ["C";"D";"1";"_";"2"]; ["C";"D";"2";"_";"1"]; ["C";"D";"2";"_";"2"];
   ["P";"C";"1";"_";"1"]; ["P";"C";"1";"_";"2"]; ["P";"C";"2";"_";"1"]; ["P";"C";"2";"_";"2"];
   ["P";"C";"0";"0";"1";"0";"0";"1"]; ["P";"C";"0";"0";"1";"0";"0";"2"]; ["P";"C";"0";"0";"2";"0";"0";"1"]; ["P";"C";"0";"0";"2";"0";"0";"2"];
   ["L";"A";"T";"P";"O";"L";"E"]; ["L";"O";"N";"P";"O";"L";"E"];
   ["C";"T";"Y";"P";"E"]; ["C";"R";"V";"A";"L"]; ["C";"D";"E";"L";"T"]; ["C";"R";"P";"I";"X"]; ["C";"R";"O";"T";"A"]; ["C";"U";"N";"I";"T"];
   ["C";"O";"1";"_"]; ["C";"O";"2";"_"]; ["P";"R";"O";"J";"P"]; ["P";"V";"1";"_"]; ["P";"V";"2";"_"]; ["E";"N";"D"]]%char.
Definition kept (s : list ascii) : Prop := exists p, In p astrometric /\ starts_with p s.
Definition doubled (s : list ascii) : Prop :=
  starts_with ["R";"A";"D";"E";"C";"S";"Y";"S"]%char s \/ starts_with ["S";"E";"C";"P";"I";"X"]%char s.
(* the cards that are kept, in their order *)
Inductive filtered : list (list ascii) -> list (list ascii) -> Prop :=
  | filtered_nil : filtered [] []
  | filtered_drop c l l' : ~ kept c -> filtered l l' -> filtered (c :: l) l'
  | filtered_keep c l l' : kept c -> ~ doubled c -> filtered l l' -> filtered (c :: l) (c :: l')
  | filtered_twice c l l' : doubled c -> filtered l l' -> filtered (c :: l) (c :: c :: l').
