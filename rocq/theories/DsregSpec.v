(* The format of DS9 region files, as far as vif supports it. *)
From Coq Require Import Ascii String QArith.
From Verif Require Import Base StrSpec.
Local Open Scope nat_scope.
Local Open Scope list_scope.

Definition txt (s : string) : str := list_ascii_of_string s.
Definition blank : str := [" "; "009"; "010"; "013"]%char.
(* m is s without the blanks around it *)
Definition trimmed (s m : str) : Prop := exists a b, s = a ++ m ++ b /\ made_of blank a /\ made_of blank b /\
  (m = [] \/ (exists c t, m = c :: t /\ ~ In c blank) /\ (exists t c, m = t ++ [c] /\ ~ In c blank)).
(* the value of an option: what follows the first occurrence of the key, up to a space or a tab *)
Inductive given (key opts : str) : option str -> Prop :=
| given_no : ~ occurs key opts -> given key opts None
| given_yes a v b : opts = a ++ key ++ v ++ b -> (forall i, occurs_at key opts i -> List.length a <= i) -> free_of blank v ->
    (b = [] \/ exists c t, b = c :: t /\ (c = " " \/ c = "009")%char) -> given key opts (Some v).
(* what follows the parenthesis of a region: options after the first # *)
Inductive options (tail : str) : option str -> option str -> Prop :=
| options_no : ~ In "#"%char tail -> options tail None None
| options_yes t0 opts c t : tail = t0 ++ "#"%char :: opts -> ~ In "#"%char t0 ->
    given (txt "color=") opts c -> given (txt "text=") opts t -> options tail c t.

Section Numbers.
Variable parse : str -> option Q.
Variable sex : str -> str -> outcome (option (Q * Q)).

(* a size: in pixels, or in arcsec with the unit *)
Definition size_is (physical : bool) (s : str) (v : Q) : Prop :=
  if physical then parse s = Some v else exists t, s = t ++ ["034"%char] /\ parse t = Some v.
(* a position: pixel 1 is the first one in the file and 0 in the program *)
Inductive centre_is : bool -> str -> str -> Q -> Q -> Prop :=
| centre_pixel a b x y : ~ In ":"%char a -> parse a = Some x -> parse b = Some y -> centre_is true a b (x - 1) (y - 1)
| centre_deg a b x y : ~ In ":"%char a -> parse a = Some x -> parse b = Some y -> centre_is false a b x y
| centre_sex a b x y : In ":"%char a -> sex a b = Ok (Some (x, y)) -> centre_is false a b x y.
Inductive shape (physical : bool) : str -> list str -> list Q -> Prop :=
| shape_circle a b c x y r : centre_is physical a b x y -> size_is physical c r -> shape physical (txt "circle") [a; b; c] [x; y; r]
| shape_box a b c d e x y w h t : centre_is physical a b x y -> size_is physical c w -> size_is physical d h -> parse e = Some t ->
    shape physical (txt "box") [a; b; c; d; e] [x; y; w; h; t].
End Numbers.

(* a line with a region: the type and the arguments may have blanks around them *)
Definition region_line (line type : str) (args : list str) (tail : str) : Prop :=
  exists tp raw, line = tp ++ "("%char :: joined raw [","%char] ++ ")"%char :: tail /\
    trimmed tp type /\ Forall2 trimmed raw args /\ raw <> [] /\
    ~ In "("%char tp /\ (forall a, In a raw -> ~ In ","%char a /\ ~ In ")"%char a) /\
    (exists c t, (type = c :: t \/ type = [] /\ c = "("%char) /\ c <> "#"%char) /\ ~ (exists t, line = txt "global" ++ t).

(* a number that is read again as it was written *)
Definition printable (parse : str -> option Q) (show : Q -> str) (q : Q) : Prop :=
  parse (show q) = Some q /\ show q <> [] /\ free_of ([","; "("; ")"; ":"; "034"; "#"]%char ++ blank) (show q).
