(* Command line arguments.  Source: include/vif/utility/argv.hpp.
   A variable is a scalar, a string, or a vec<1,T> of one of them.  The conversion of a string into a
   scalar (from_string, core/string_conversion.hpp) is a parameter: [parse s] is its value, None when
   it fails, and [left s x] is what a failed conversion leaves in a variable equal to x.  [one] is the
   integer 1 converted to the type of the scalar, [show] is to_string(). *)
From Coq Require Import Ascii String.
From Verif Require Import Base StrModel.
Local Open Scope nat_scope.

Definition lit (s : String.string) : list ascii := list_ascii_of_string s.
Definition quotes : list ascii := ["'"; """"]%char.

Section Argv.
Context {V : Type} (parse : list ascii -> option V) (left : list ascii -> V -> V) (one : V) (show : V -> list ascii).

Inductive var := Scalar (x : V) | Text (s : list ascii) | Vector (l : list V) | Texts (l : list (list ascii)).

(* read_args_n2T_(t, 1) (14-24, 32-36, 44-48; lines 68, 97) *)
Definition set_one (t : var) : var :=
  match t with
  | Scalar _ => Scalar one
  | Text _ => Text (lit "1")
  | Vector _ => Vector [one]
  | Texts _ => Texts [lit "1"]
  end.
(* 57-74, 86-103: the name and the value of an argument; None when the argument is not
   for [name]; otherwise the text after '=', if there is one *)
Definition find_char (c : ascii) (s : list ascii) : option nat := find_first (has [c]) s (Some 0).
Definition dashed (arg : list ascii) : bool := match arg with c :: _ => Ascii.eqb c "-"%char | [] => false end.
Definition arg_for (arg name : list ascii) : outcome (option (option (list ascii))) :=
  match find_char "="%char arg with
  | None =>
      a <- (if dashed arg then substr_end arg 1 else Ok arg) ;;
      Ok (if list_eq_dec ascii_dec a name then Some None else None)
  | Some p =>
      let p0 := if dashed arg then 1 else 0 in
      a <- substr arg p0 (p - p0) ;;
      a <- trim a blanks ;;
      if list_eq_dec ascii_dec a name then v <- substr_end arg (p + 1) ;; Ok (Some (Some v)) else Ok None
  end.
(* 114-126 *)
Fixpoint read_elems {E} (p : list ascii -> option E) (l : list (list ascii)) (acc : list E) : outcome (option (list E)) :=
  match l with
  | [] => Ok (Some acc)
  | s :: l =>
      s <- trim s blanks ;; s <- trim s quotes ;;
      match p s with None => Ok None | Some x => read_elems p l (acc ++ [x]) end
  end.
(* 108-137: the new value, None when the conversion fails; and whether it is a list of values *)
Definition read_vec {E} (p : list ascii -> option E) (value : list ascii) : outcome (option (list E) * bool) :=
  match value with
  | c :: body =>
      if Ascii.eqb c "["%char && Ascii.eqb (last value c) "]"%char then
        (* value.erase(0,1) leaves body; pop_back() on an empty string is undefined *)
        match body with
        | [] => UB
        | _ =>
            match removelast body with
            | [] => Ok (Some [], false)
            | b => vals <- split b [","%char] ;; r <- read_elems p vals [] ;; Ok (r, true)
            end
        end
      else s <- trim value blanks ;; s <- trim s quotes ;;
           Ok (match p s with Some x => Some [x] | None => None end, false)
  | [] => s <- trim value blanks ;; s <- trim s quotes ;;
          Ok (match p s with Some x => Some [x] | None => None end, false)
  end.
(* 55-82 and 84-141: read_args_impl_; returns (found, read, valid, t) *)
Definition read_impl (arg name : list ascii) (read valid : bool) (t : var) : outcome (bool * bool * bool * var) :=
  r <- arg_for arg name ;;
  match r with
  | None => Ok (false, read, valid, t)
  | Some None => Ok (true, true, true, set_one t)
  | Some (Some v) =>
      v <- trim v blanks ;;
      match t with
      | Scalar x =>
          v <- trim v quotes ;;
          match parse v with
          | Some y => Ok (true, true, true, Scalar y)
          | None => Ok (true, true, false, Scalar (left v x))
          end
      | Text _ => v <- trim v quotes ;; Ok (true, true, true, Text v)
      | Vector l =>
          '(r, inlist) <- read_vec parse v ;;
          match r with
          | Some l => Ok (true, true, true, Vector l)
          | None => Ok (negb inlist, true, false, t)   (* 119-121 return false, 140 true *)
          end
      | Texts l =>
          '(r, inlist) <- read_vec Some v ;;
          match r with
          | Some l => Ok (true, true, true, Texts l)
          | None => Ok (negb inlist, true, false, t)
          end
      end
  end.

(* 143-157: write_arg_ *)
Definition write_vec (l : list (list ascii)) : list ascii :=
  lit "[" ++ fst (fold_left (fun '(s, i) x => ((if 0 <? i then s ++ lit "," else s) ++ x, i + 1)) l ([], 0)) ++ lit "]".
Definition write_arg (t : var) : list ascii :=
  match t with
  | Scalar x => show x
  | Text s => s
  | Vector l => write_vec (map show l)
  | Texts l => write_vec l
  end.

(* an argument, with its flags *)
Record arg := Arg { text : list ascii; read : bool; valid : bool }.

(* 174-182, 209-217: idm holds the indices of the arguments that contain the name; a warning is printed
   for the argument that cannot be converted, and the loop stops *)
Fixpoint read_loop (name : list ascii) (idm : list nat) (args : list arg) (t : var) (found : bool) :
    outcome (list arg * var * bool * bool) :=
  match idm with
  | [] => Ok (args, t, found, false)
  | i :: idm =>
      a <- oget args i ;;
      '(f, r, v, t) <- read_impl (text a) name (read a) (valid a) t ;;
      args <- oset args i (Arg (text a) r v) ;;
      let found := found || f in
      if v then read_loop name idm args t found else Ok (args, t, found, true)
  end.
(* 172-188, 207-223: returns the arguments, the variable, and whether there is a warning *)
Definition read_var (name : list ascii) (args : list arg) (t : var) : outcome (list arg * var * bool) :=
  let idm := filter (fun i => match nth_error args i with
                              | Some a => match sfind name (text a) 0 with Some _ => true | None => false end
                              | None => false end) (seq 0 (length args)) in
  '(args, t, found, w) <- read_loop name idm args t false ;;
  Ok (if found : bool then args else args ++ [Arg (name ++ lit "=" ++ write_arg t) true true], t, w).

(* 165-170: the name of a variable from the text of arg_list(), and where the text continues *)
Definition split_name (names : list ascii) : outcome (list ascii * option nat) :=
  let pos := find_char ","%char names in
  n <- match pos with Some p => substr names 0 p | None => Ok names end ;;
  n <- trim n blanks ;;
  n <- match find_last (has ["."%char]) n None with
       | Some p => n <- substr_end n (p + 1) ;; trim n blanks
       | None => Ok n
       end ;;
  Ok (n, pos).
(* a variable, and the name given to it with name(), if any *)
Definition item := (option (list ascii) * var)%type.
(* 159-198, 200-228: read_args_; the warnings are the names *)
Fixpoint read_args (args : list arg) (names : list ascii) (l : list item) :
    outcome (list arg * list var * list (list ascii)) :=
  match l with
  | [] => Ok (args, [], [])
  | (None, t) :: l =>
      '(n, pos) <- split_name names ;;
      '(args, t, w) <- read_var n args t ;;
      let warn := if w : bool then [n] else [] in
      match pos with
      | Some p =>
          names <- substr_end names (p + 1) ;;
          '(args, ts, ws) <- read_args args names l ;; Ok (args, t :: ts, warn ++ ws)
      | None => match l with [] => Ok (args, [t], warn) | _ => Throws end
      end
  | (Some n, t) :: l =>
      '(args, t, w) <- read_var n args t ;;
      let warn := if w : bool then [n] else [] in
      match find_char ")"%char names with
      | Some p =>
          if p + 1 =? length names then Ok (args, t :: map snd l, warn)
          else names <- substr_end names (p + 2) ;;
               '(args, ts, ws) <- read_args args names l ;; Ok (args, t :: ts, warn ++ ws)
      | None => Ok (args, t :: map snd l, warn)
      end
  end.
(* 231-272: write_args_; after a variable with name() the others are read, not written *)
Fixpoint write_args (args : list arg) (names : list ascii) (l : list item) :
    outcome (list arg * list var * list (list ascii)) :=
  match l with
  | [] => Ok (args, [], [])
  | (None, t) :: l =>
      '(n, pos) <- split_name names ;;
      let args := args ++ [Arg (n ++ lit "=" ++ write_arg t) true true] in
      match pos with
      | Some p =>
          names <- substr_end names (p + 1) ;;
          '(args, ts, ws) <- write_args args names l ;; Ok (args, t :: ts, ws)
      | None => match l with [] => Ok (args, [t], []) | _ => Throws end
      end
  | (Some n, t) :: l =>
      let args := args ++ [Arg (n ++ lit "=" ++ write_arg t) true true] in
      match find_char ")"%char names with
      | Some p =>
          if p + 1 =? length names then Ok (args, t :: map snd l, [])
          else names <- substr_end names (p + 2) ;;
               '(args, ts, ws) <- read_args args names l ;; Ok (args, t :: ts, ws)
      | None => Ok (args, t :: map snd l, [])
      end
  end.

(* 276-293: the constructors of program_arguments; argv is without the name of the program *)
Definition make_args (argv : list (list ascii)) : outcome (list arg) :=
  omapl (fun a => a <- trim a blanks ;; Ok (Arg a false true)) argv.
Definition make_args_vec (argv : list (list ascii)) : list arg := map (fun a => Arg a false true) argv.
(* 295-300: the arguments reported as unrecognized by the destructor *)
Definition unrecognized (args : list arg) : list (list ascii) := map text (filter (fun a => negb (read a)) args).
(* 318-320 *)
Definition serialize (args : list arg) : list ascii := collapse_sep (map text args) (lit " ").
End Argv.
Arguments var V : clear implicits.
Arguments Scalar {V} x.
Arguments Text {V} s.
Arguments Vector {V} l.
Arguments Texts {V} l.
Arguments item V : clear implicits.

(* 342-358: make_cmd *)
Definition make_cmd (prog : list ascii) (argv : list (list ascii)) : outcome (list ascii) :=
  ofold (fun cmd tmp =>
      tmp <- match find_first (has (lit " " ++ ["009"%char])) tmp (Some 0) with
             | None => Ok tmp
             | Some _ =>
                 match find_char "="%char tmp with
                 | None => Ok (lit """" ++ tmp ++ lit """")
                 | Some p => a <- substr tmp 0 (p + 1) ;; b <- substr_end tmp (p + 1) ;;
                             Ok (a ++ lit """" ++ b ++ lit """")
                 end
             end ;;
      Ok (cmd ++ lit " " ++ tmp)) argv prog.
