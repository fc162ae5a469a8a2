(* Keywords of a FITS header.  Source: include/vif/io/fits/base.hpp 502-537 (has_keyword,
   read_keyword), 558-585 (hdu_type), 711-765 (write_keyword, add_keyword, remove_keyword), for an
   open file.  Assumed of cfitsio: the header is a list of cards with a name and the text of the
   value; a name is searched from the card after the last one found to the end, and then from the
   first card; fits_read_keyword gives the text of the value as it is in the card, and an empty text
   if there is no such card; fits_update_key replaces the value of the card found or adds a card at
   the end, fits_write_key always adds one, fits_delete_key removes the card found; a string is
   written between quotes, with its quotes doubled, completed by blanks to 8 characters, and cut to
   68 characters.  Names have at most 8 characters, all upper case; comments are left out.  (For a
   string that is cut in the middle of a doubled quote the last character may differ.) *)
From Coq Require Import Ascii String.
From Verif Require Import Base StrModel.
Local Open Scope list_scope.

Definition is_name (a b : list ascii) : bool := if list_eq_dec ascii_dec a b then true else false.
Record hdr := Hdr { cards : list (list ascii * list ascii); at_card : nat }.
Definition locate (h : hdr) (name : list ascii) : option nat :=
  find (fun i => match nth_error (cards h) i with Some c => is_name (fst c) name | None => false end)
    (seq (at_card h) (List.length (cards h) - at_card h) ++ seq 0 (at_card h)).
(* the text that stands for a string *)
Definition quote : ascii := "'"%char.
Fixpoint doubled (s : list ascii) : list ascii :=
  match s with
  | [] => []
  | c :: s => if Ascii.eqb c quote then quote :: quote :: doubled s else c :: doubled s
  end.
Definition string_text (s : list ascii) : list ascii :=
  let t := firstn 68 (doubled s) in
  quote :: t ++ repeat " "%char (8 - List.length t) ++ [quote].

(* 502-510 *)
Definition has_keyword (h : hdr) (name : list ascii) : bool * hdr :=
  match locate h name with
  | Some i => (true, Hdr (cards h) (i + 1))
  | None => (false, h)
  end.
(* 512-522: success, the new value *)
Definition read_string (h : hdr) (name : list ascii) : outcome (bool * list ascii * hdr) :=
  match locate h name with
  | Some i => c <- oget (cards h) i ;; v <- trim (snd c) (list_ascii_of_string " '") ;; Ok (true, v, Hdr (cards h) (i + 1))
  | None => v <- trim [] (list_ascii_of_string " '") ;; Ok (false, v, h)
  end.
(* 524-540: from_string takes the text and the old value and gives success and the new value *)
Definition read_keyword {T} (from_string : list ascii -> T -> bool * T) (h : hdr) (name : list ascii) (old : T) : outcome (bool * T * hdr) :=
  ' (ok, content, h) <- read_string h name ;;
  if negb ok then Ok (false, old, h)
  else
    let content := if is_name content ["T"%char] then ["1"%char] else if is_name content ["F"%char] then ["0"%char] else content in
    Ok (from_string content old, h).
(* 711-720, 734-746: text is that of the value, see string_text *)
Definition write_keyword (h : hdr) (name text : list ascii) : hdr :=
  match locate h name with
  | Some i => Hdr (upd (cards h) i (name, text)) (i + 1)
  | None => Hdr (cards h ++ [(name, text)]) (at_card h)
  end.
(* 722-732, 748-756 *)
Definition add_keyword (h : hdr) (name text : list ascii) : hdr := Hdr (cards h ++ [(name, text)]) (at_card h).
(* 758-763 *)
Definition remove_keyword (h : hdr) (name : list ascii) : hdr :=
  match locate h name with
  | Some i => Hdr (firstn i (cards h) ++ skipn (i + 1) (cards h)) i
  | None => h
  end.
(* 558-585; axes is the number of axes *)
Inductive kind := NullHdu | EmptyHdu | ImageHdu | TableHdu.
Definition hdu_type (from_string : list ascii -> bool -> bool * bool) (axes : nat) (h : hdr) : outcome kind :=
  let image := if axes =? 0 then EmptyHdu else ImageHdu in
  ' (ok, _, h) <- read_keyword from_string h (list_ascii_of_string "SIMPLE") false ;;
  if ok : bool then Ok image
  else
    ' (ok, x, h) <- read_string h (list_ascii_of_string "XTENSION") ;;
    if ok : bool then
      if is_name x (list_ascii_of_string "IMAGE") then Ok image
      else if is_name x (list_ascii_of_string "BINTABLE") || is_name x (list_ascii_of_string "TABLE") then Ok TableHdu
      else CheckFail
    else Ok NullHdu.
