(* Names in a backtrace: include/vif/core/error.hpp 145-258 (dbg_pretty_demangled, dbg_pretty_filename).  The local
   functions of replacement, cutting and trimming are the same as those of StrModel. *)
From Coq Require Import Ascii String.
From Verif Require Import Base StrModel.
Open Scope nat_scope.
Open Scope list_scope.
Definition lit (s : string) : str := list_ascii_of_string s.
Definition lt : ascii := "<"%char.
Definition gt : ascii := ">"%char.
Definition eqs (a b : str) : bool := if list_eq_dec ascii_dec a b then true else false.

(* 201-204: the position where the bracket is closed, or the end *)
Fixpoint scan (l : str) (p open : nat) : nat :=
  match open, l with
  | 0, _ => p
  | _, [] => p
  | _, c :: t => scan t (S p) (if Ascii.eqb c lt then S open else if Ascii.eqb c gt then open - 1 else open)
  end.
(* 207-212 *)
Fixpoint put (first : bool) (l : list str) : str :=
  match l with
  | [] => []
  | [x] => if eqs x (lit "void") then [] else (if first then [] else lit ",") ++ x
  | x :: t => (if first then [] else lit ",") ++ x ++ put false t
  end.
(* 195-218 *)
Fixpoint args_loop (fuel : nat) (o : str) (p : option nat) (p0 : nat) (name : str) : outcome str :=
  match p with
  | None => r <- substr_end o p0 ;; Ok (name ++ r)
  | Some p =>
      match fuel with
      | 0 => Diverge
      | S fuel =>
          a <- substr o p0 (p - p0 + 1) ;;
          let p1 := p + 1 in
          let e := scan (skipn p1 o) p1 1 in
          (* e-p1-1 is npos when e = p1 *)
          x <- (if e =? p1 then substr_end o p1 else substr o p1 (e - p1 - 1)) ;;
          ps <- split x (lit ",") ;;
          ps <- omapl (fun s => trim s [" "; ascii_of_nat 9]%char) ps ;;
          args_loop fuel o (sfind [lt] o e) e (name ++ a ++ put true ps ++ [gt])
      end
  end.
Definition args (o : str) : outcome str := args_loop (length o) o (sfind [lt] o 0) 0 [].
(* 224-237 *)
Definition is_digit (c : ascii) : bool := ((48 <=? nat_of_ascii c) && (nat_of_ascii c <=? 57))%bool.
Fixpoint ul_loop (fuel : nat) (o : str) (p : option nat) (p0 : nat) (name : str) : outcome str :=
  match p with
  | None => r <- substr_end o p0 ;; Ok (name ++ r)
  | Some p =>
      match fuel with
      | 0 => Diverge
      | S fuel =>
          digit <- (if p =? 0 then Ok false else c <- oget o (p - 1) ;; Ok (is_digit c)) ;;
          if (digit : bool) then
            a <- substr o p0 (p - p0) ;; ul_loop fuel o (sfind (lit "ul") o (p + 2)) (p + 2) (name ++ a)
          else ul_loop fuel o (sfind (lit "ul") o (p + 2)) p0 name
      end
  end.
Definition constants (o : str) : outcome str := ul_loop (length o) o (sfind (lit "ul") o 0) 0 [].
(* 146-242 *)
Definition dbg_pretty_demangled (s : str) : outcome str :=
  s <- replace s (lit "unsigned long") (lit "uint_t") ;; s <- args s ;; constants s.
(* 244-254 *)
Definition dbg_pretty_filename (f : str) : outcome str :=
  match find_last (has (lit "/")) f None with
  | Some p =>
      x <- substr f (p + 1) (length (lit "._reflex_")) ;;
      if eqs x (lit "._reflex_") then substr_end f (p + 1 + length (lit "._reflex_")) else Ok f
  | None => Ok f
  end.
