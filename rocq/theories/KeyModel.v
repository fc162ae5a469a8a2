(* Keywords of a FITS header.  Source: include/vif/io/fits/base.hpp 778-896 (getkey, setkey).

   A header is a text, a sequence of cards of 80 characters.  A value is given to setkey as text
   (to_string(v), or to_string(format::precision(v, 16)) for a double), and is read by getkey as
   text; from_string is a parameter of getkey. *)
From Coq Require Import Ascii.
From Verif Require Import Base StrModel.

Notation str := (list ascii) (only parsing).
Definition same_str (a b : str) : bool := if list_eq_dec ascii_dec a b then true else false.

(* hdr.substr(i*80, min(80, hdr.size() - i*80)) *)
Definition card_at (hdr : str) (i : nat) : outcome str :=
  substr hdr (i * 80) (Nat.min 80 (length hdr - i * 80)).
(* the position of the equal sign, of the slash after it, and the name *)
Definition eq_pos (e : str) : option nat := find_first (has ["="%char]) e (Some 0).
Definition slash_pos (e : str) (eqpos : nat) : option nat := find_first (has ["/"%char]) e (Some eqpos).
Definition name_of (e : str) (eqpos : nat) : outcome str :=
  nam <- substr e 0 eqpos ;; trim nam blanks.

(* 780-797 and 799-820: the text of the value, None if the key is not found; cpos = npos gives a
   length that goes beyond the end *)
Fixpoint find_text (hdr key : str) (l : list nat) : outcome (option str) :=
  match l with
  | [] => Ok None
  | i :: l =>
      e <- card_at hdr i ;;
      match eq_pos e with
      | None => find_text hdr key l
      | Some eqpos =>
          nam <- name_of e eqpos ;;
          if same_str nam key then
            v <- match slash_pos e eqpos with
                 | Some cpos => substr e (eqpos + 1) (cpos - eqpos - 1)
                 | None => substr_end e (eqpos + 1)
                 end ;;
            v <- trim v blanks ;; Ok (Some v)
          else find_text hdr key l
      end
  end.
Definition get_text (hdr key : str) : outcome (option str) :=
  find_text hdr key (seq 0 (length hdr / 80 + 1)).
(* 780-797; from_string: None if the text cannot be read *)
Definition getkey {T} (from_string : str -> option T) (hdr key : str) : outcome (option T) :=
  omap (fun t => match t with Some v => from_string v | None => None end) (get_text hdr key).
(* 799-820 *)
Definition getkey_string (hdr key : str) : outcome (option str) :=
  t <- get_text hdr key ;;
  match t with
  | None => Ok None
  | Some v =>
      match find_first (has ["'"%char]) v (Some 0) with
      | Some 0 => omap Some (trim v ["'"%char])
      | _ => Ok (Some v)
      end
  end.

(* 867-879: the comment of the previous entry is kept *)
Definition carry_comment (entry e : str) (eqpos : nat) (nocomment : bool) : outcome str :=
  match nocomment, slash_pos e eqpos with
  | true, Some cpos =>
      cmt <- substr_end e (cpos + 1) ;;
      let n := entry ++ [" "; "/"]%char ++ cmt in
      Ok (if 80 <? length n then
            if Ascii.eqb (last n " "%char) "&"%char then firstn 79 n ++ ["&"%char]
            else firstn 80 n
          else n)
  | _, _ => Ok entry
  end.
(* 849-886: the loop over the entries; the result is the entry, the header and the position *)
Fixpoint set_loop (hdr key entry : str) (nocomment : bool) (ipos : option nat) (l : list nat)
  : outcome (str * str * option nat) :=
  match l with
  | [] => Ok (entry, hdr, ipos)
  | i :: l =>
      e <- card_at hdr i ;;
      match eq_pos e with
      | None => set_loop hdr key entry nocomment ipos l
      | Some eqpos =>
          nam <- name_of e eqpos ;;
          if same_str nam key then
            entry <- carry_comment entry e eqpos nocomment ;;
            hdr <- erase hdr (i * 80) 80 ;;
            Ok (entry, hdr, Some (i * 80))
          else set_loop hdr key entry nocomment ipos l
      end
  end.
(* 822-896 *)
Definition setkey (hdr key value comment : str) : outcome (bool * str) :=
  if 8 <? length key then Ok (false, hdr)
  else
    let entry := key ++ repeat " "%char (8 - length key) ++ ["="; " "]%char ++
      value ++ match comment with [] => [] | _ => [" "; "/"; " "]%char ++ comment end in
    if 80 <? length entry then Ok (false, hdr)
    else
      ipos <- (if 80 <=? length hdr then
                 t <- substr hdr (length hdr - 80) 80 ;;
                 Ok (option_map (fun p => p + (length hdr - 80)) (sfind ["E"; "N"; "D"]%char t 0))
               else Ok None) ;;
      ' (entry, hdr, ipos) <- set_loop hdr key entry (match comment with [] => true | _ => false end) ipos
                                (seq 0 (length hdr / 80 + 1)) ;;
      let entry := entry ++ repeat " "%char (80 - length entry) in
      match ipos with
      | None => Ok (true, hdr ++ entry)
      | Some p => if p <=? length hdr then Ok (true, firstn p hdr ++ entry ++ skipn p hdr) else Throws
      end.
