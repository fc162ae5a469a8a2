(* Names of the columns given as macro arguments.  Source: include/vif/io/ascii.hpp 715-776, used by
   ascii::write_table(..., ftable(...)) and by the reading and writing of FITS tables. *)
From Coq Require Import Ascii String.
From Verif Require Import Base StrModel NumModel.
Local Open Scope nat_scope.

(* 719-726 *)
Definition bake (t : list ascii) : outcome (list ascii) :=
  match find_first (has ["."%char]) t (Some 0) with Some p => substr_end t (p + 1) | None => Ok t end.

Definition spacing : list ascii := [" "; "009"]%char.
Definition opening : list ascii := ["("; "["; "{"]%char.
Definition closing : list ascii := [")"; "]"; "}"]%char.
(* 741-752: the effect of one character on the stack, whose back is the head of the list.  An opening and
   a closing bracket are different characters, so that the order of the tests does not matter *)
Fixpoint bracket (c : ascii) (k : nat) (os cs : list ascii) (stack : list nat) : outcome (list nat) :=
  match os, cs with
  | o :: os, d :: cs =>
      if Ascii.eqb c o then Ok (k :: stack)
      else if Ascii.eqb c d then
        match stack with
        | [] => UB     (* back() of an empty vector *)
        | j :: stack => _ <- check (j =? k) ;; Ok stack
        end
      else bracket c (k + 1) os cs stack
  | _, _ => Ok stack
  end.
(* 739-753: from the characters s that start at pos; the final value of pos *)
Fixpoint scan (s : list ascii) (pos : nat) (stack : list nat) : outcome nat :=
  match s with
  | [] => Ok pos
  | c :: t =>
      match stack with
      | [] => if Ascii.eqb c ","%char then Ok pos else st <- bracket c 0 opening closing [] ;; scan t (pos + 1) st
      | _ => st <- bracket c 0 opening closing stack ;; scan t (pos + 1) st
      end
  end.
(* 728-770: pop_macroed_name; the name, and what remains in s *)
Definition pop_name (s : list ascii) : outcome (list ascii * list ascii) :=
  match find_first (hasnt spacing) s (Some 0) with
  | None => Throws     (* p0 = npos: s.substr(npos, ...) *)
  | Some p0 =>
      pos <- scan (skipn p0 s) p0 [] ;;
      let p1 := if pos =? length s then pos else pos + 1 in
      (* --pos; npos when pos is 0: the whole string is searched *)
      let last := find_last (hasnt spacing) s (match pos with 0 => None | S p => Some p end) in
      (* pos+1-p0 is npos+1-p0, and wraps to a number larger than the string, when there is no such
         character *)
      name <- match last with Some l => if p0 <=? l + 1 then substr s p0 (l + 1 - p0) else substr_end s p0
                            | None => if p0 =? 0 then substr s 0 0 else substr_end s p0 end ;;
      s <- substr_end s p1 ;;
      Ok (name, s)
  end.
(* 772-780: split_macroed_names: do ... while (!s.empty()) *)
Fixpoint split_loop (fuel : nat) (s : list ascii) (names : list (list ascii)) : outcome (list (list ascii)) :=
  match fuel with
  | O => Diverge
  | S f =>
      '(n, s) <- pop_name s ;;
      match s with [] => Ok (names ++ [n]) | _ => split_loop f s (names ++ [n]) end
  end.
Definition split_names (s : list ascii) : outcome (list (list ascii)) := split_loop (S (length s)) s [].

(* 781-805: write_table_hdr_fix_2d_ from column i; for each argument the number of columns of a vec<2>, None
   for anything else *)
Fixpoint fix_2d (vnames : list (list ascii)) (i : nat) (args : list (option nat)) : outcome (list (list ascii)) :=
  match args with
  | [] => Ok vnames
  | None :: args => fix_2d vnames (i + 1) args
  | Some k :: args =>
      _ <- check (i <? length vnames) ;;
      base <- oget vnames i ;;
      let ncols := map (fun j => base ++ "_"%char :: to_string (Z.of_nat (j + 1))) (seq 0 k) in
      match ncols with
      | [] => UB     (* the range begin()+1, end() of an empty vector *)
      | n :: ns => fix_2d (firstn i vnames ++ n :: ns ++ skipn (i + 1) vnames) (i + k) args
      end
  end.
(* 812-817: the header of write_table(..., ftable(args...)) *)
Definition macro_header (names : list ascii) (args : list (option nat)) : outcome (list (list ascii)) :=
  hdr <- split_names names ;; hdr <- omapl bake hdr ;; fix_2d hdr 0 args.
