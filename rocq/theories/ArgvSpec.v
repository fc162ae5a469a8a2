(* Independent vocabulary for command line arguments. *)
From Coq Require Import Ascii String.
From Verif Require Import Base StrSpec ArgvModel.
Local Open Scope nat_scope.
Notation text_t := (list ascii) (only parsing).

Definition blank_chars : text_t := [" "; "009"; "010"; "013"]%char.
Definition quote_chars : text_t := ["'"; """"]%char.
(* s without the characters [chars] at its two ends *)
Fixpoint drop_first (chars s : text_t) : text_t :=
  match s with [] => [] | c :: t => if in_dec ascii_dec c chars then drop_first chars t else s end.
Definition strip (chars s : text_t) : text_t := rev (drop_first chars (rev (drop_first chars s))).
(* a value as it is written on the command line, without the blanks and then the quotes around it *)
Definition clean (s : text_t) : text_t := strip quote_chars (strip blank_chars s).

(* the parts before and after the first character c *)
Fixpoint before (c : ascii) (s : text_t) : text_t :=
  match s with [] => [] | a :: t => if ascii_dec a c then [] else a :: before c t end.
Fixpoint after (c : ascii) (s : text_t) : option text_t :=
  match s with [] => None | a :: t => if ascii_dec a c then Some t else after c t end.
Definition undash (s : text_t) : text_t :=
  match s with [] => [] | a :: t => if ascii_dec a "-"%char then t else s end.
(* an argument is a flag, "name" or "-name", or an assignment, "name=value" or "-name=value" *)
Definition arg_name (a : text_t) : text_t :=
  match after "="%char a with
  | None => undash a
  | Some _ => strip blank_chars (undash (before "="%char a))
  end.
(* the pieces of s between the commas *)
Fixpoint pieces (s : text_t) : list text_t :=
  match s with
  | [] => [[]]
  | c :: t =>
      if ascii_dec c ","%char then [] :: pieces t
      else match pieces t with x :: w => (c :: x) :: w | [] => [[c]] end
  end.
Fixpoint sequence {A} (l : list (option A)) : option (list A) :=
  match l with
  | [] => Some []
  | Some x :: l => option_map (cons x) (sequence l)
  | None :: _ => None
  end.
(* the values listed in "[...]", or the single value without brackets *)
Definition listed (s : text_t) : option text_t :=
  match s with
  | "["%char :: b => match rev b with "]"%char :: r => Some (rev r) | _ => None end
  | _ => None
  end.
Definition values {E} (p : text_t -> option E) (s : text_t) : option (list E) :=
  match listed s with
  | Some [] => Some []
  | Some b => sequence (map (fun x => p (clean x)) (pieces b))
  | None => option_map (fun x => [x]) (p (clean s))
  end.

Section Vars.
Context {V : Type} (parse : text_t -> option V) (left : text_t -> V -> V) (one : V) (show : V -> text_t).
(* the value that an argument gives to a variable of the type of t, None if it cannot be converted *)
Definition assigned (t : var V) (a : text_t) : option (var V) :=
  match after "="%char a with
  | None =>
      Some (match t with
            | Scalar _ => Scalar one | Text _ => Text (lit "1")
            | Vector _ => Vector [one] | Texts _ => Texts [lit "1"] end)
  | Some v =>
      match t with
      | Scalar _ => option_map Scalar (parse (clean v))
      | Text _ => Some (Text (clean v))
      | Vector _ => option_map Vector (values parse (strip blank_chars v))
      | Texts _ => option_map Texts (values Some (strip blank_chars v))
      end
  end.
(* what a failed conversion leaves in the variable *)
Definition spoiled (t : var V) (a : text_t) : var V :=
  match t, after "="%char a with
  | Scalar x, Some v => Scalar (left (clean v) x)
  | _, _ => t
  end.

Definition is_for (n a : text_t) : bool := if list_eq_dec ascii_dec (arg_name a) n then true else false.
(* the arguments for the name n *)
Definition uses (n : text_t) (l : list text_t) : list text_t := filter (is_for n) l.
(* t' is the value of t after the arguments us, the last one winning *)
Definition ends_as (t : var V) (us : list text_t) (t' : var V) : Prop :=
  match rev us with [] => t' = t | a :: _ => assigned t a = Some t' end.

(* name and value as they are written *)
Fixpoint list_text (l : list text_t) : text_t :=
  match l with [] => [] | [x] => x | x :: l => x ++ lit "," ++ list_text l end.
Definition var_text (t : var V) : text_t :=
  match t with
  | Scalar x => show x
  | Text s => s
  | Vector l => lit "[" ++ list_text (map show l) ++ lit "]"
  | Texts l => lit "[" ++ list_text l ++ lit "]"
  end.
Definition assignment (n : text_t) (t : var V) : text_t := n ++ lit "=" ++ var_text t.
End Vars.

(* a name that can be used on the command line *)
Definition good_name (n : text_t) : Prop :=
  strip blank_chars n = n /\ ~ In "="%char n /\ (forall r, n <> "-"%char :: r).

(* the part of a name after its last dot *)
Fixpoint after_dots (s : text_t) : text_t :=
  match s with
  | [] => []
  | c :: t => if in_dec ascii_dec "."%char t then after_dots t
              else if ascii_dec c "."%char then t else s
  end.
(* the text w that arg_list() makes of a variable whose name is n; [None] when name() is not used *)
Definition names_it {V} (w : text_t) (it : item V) (n : text_t) : Prop :=
  match fst it with
  | None => ~ In ","%char w /\ strip blank_chars (after_dots (strip blank_chars w)) = n
  | Some m => m = n /\ exists u, w = u ++ [")"%char] /\ ~ In ")"%char u
  end.
Definition name_it_all {V} := fix go (ws : list text_t) (its : list (item V)) (ns : list text_t) : Prop :=
  match ws, its, ns with
  | [], [], [] => True
  | w :: ws, it :: its, n :: ns => names_it w it n /\ go ws its ns
  | _, _, _ => False
  end.

(* --- the reading of several variables --- *)
(* the arguments after the reading of the names ns *)
Definition mark (ns : list text_t) (a : arg) : arg :=
  Arg (text a) (read a || existsb (fun n => is_for n (text a)) ns) (valid a).
(* an argument for the name n *)
Definition used (n : text_t) (args : list arg) : bool := existsb (fun a => is_for n (text a)) args.
Definition all_valid (args : list arg) : Prop := forall a, In a args -> valid a = true.
Section Reading.
Context {V : Type} (parse : text_t -> option V) (left : text_t -> V -> V) (one : V) (show : V -> text_t).
(* whether an argument that cannot be converted is taken as found: a list in brackets is not *)
Definition counted (t : var V) (a : text_t) : bool :=
  match t, after "="%char a with
  | Scalar _, _ | Text _, _ => true
  | _, Some v => match listed (strip blank_chars v) with Some _ => false | None => true end
  | _, None => true
  end.
(* the arguments for n can all be converted to the type of t *)
Definition convertible (n : text_t) (t : var V) (args : list arg) : Prop :=
  forall a, In a args -> is_for n (text a) = true -> assigned parse one t (text a) <> None.
(* the default value of a variable, listed when there is no argument for it *)
Definition default (args : list arg) (nt : text_t * var V) : list arg :=
  if used (fst nt) args then [] else [Arg (assignment show (fst nt) (snd nt)) true true].
(* each variable ends with the value of the last argument for its name *)
Inductive all_end (args : list arg) : list (item V) -> list text_t -> list (var V) -> Prop :=
| end_nil : all_end args [] [] []
| end_cons : forall m t its n ns t' ts, ends_as parse one t (uses n (map text args)) t' -> all_end args its ns ts ->
    all_end args ((m, t) :: its) (n :: ns) (t' :: ts).
End Reading.

(* the words of a command line, as a shell finds them: separated by blanks outside of double quotes.
   None for the characters to which a shell gives another meaning *)
Definition shell_special : text_t :=
  ["'"; "\"; "$"; "`"; "010"; ";"; "&"; "|"; "<"; ">"; "("; ")"; "*"; "?"; "["; "]"; "#"; "~"; "{"; "}"; "!"]%char.
Definition is_gap (c : ascii) : bool := if in_dec ascii_dec c [" "; "009"]%char then true else false.
Fixpoint shell_words (s : text_t) (quoted : bool) (word : option text_t) : option (list text_t) :=
  match s with
  | [] => if quoted then None else Some (match word with Some w => [w] | None => [] end)
  | c :: s =>
      let w := match word with Some w => w | None => [] end in
      if in_dec ascii_dec c shell_special then None
      else if ascii_dec c """"%char then shell_words s (negb quoted) (Some w)
      else if is_gap c && negb quoted then
        option_map (fun l => match word with Some w => w :: l | None => l end) (shell_words s false None)
      else shell_words s quoted (Some (w ++ [c]))
  end.

(* a value that is not changed by the conventions of the command line *)
Definition writable {V} (parse : text_t -> option V) (show : V -> text_t) (t : var V) : Prop :=
  match t with
  | Scalar x => parse (show x) = Some x /\ clean (show x) = show x
  | Text s => clean s = s
  | Vector l => forall x, In x l -> parse (show x) = Some x /\ clean (show x) = show x /\ show x <> [] /\ ~ In ","%char (show x)
  | Texts l => l <> [[]] /\ forall s, In s l -> clean s = s /\ ~ In ","%char s
  end.
(* t can be stored in the same variable as u *)
Definition same_type {V} (t u : var V) : Prop :=
  match t, u with
  | Scalar _, Scalar _ | Text _, Text _ | Vector _, Vector _ | Texts _, Texts _ => True
  | _, _ => False
  end.
