(* Sections of FITS images and bands of catalogs, chosen by name.  Sources: include/vif/io/fits.hpp 60-117
   (read_sectfits, read_header_sectfits, read_header_sectfits_hdu) and astro/astro.hpp 1139-1236 (get_band).
   Files are a function from names to contents; reading the header of one FITS file is a parameter (FfileModel.v,
   KeyModel.v); patterns are the syntax trees of RegModel.v.  Of what is printed, only the accesses to arrays are modelled. *)
From Coq Require Import Ascii String.
From Verif Require Import Base StrModel PathModel.
From Verif Require OrderModel RegModel.
Local Open Scope list_scope.
Local Open Scope nat_scope.

Definition newline : ascii := "010"%char.
(* the lines that while (std::getline(file, line)) sees: the last one only if it is not empty *)
Fixpoint lines_from (cur : list ascii) (s : list ascii) : list (list ascii) :=
  match s with
  | [] => match cur with [] => [] | _ => [cur] end
  | c :: s => if Ascii.eqb c newline then cur :: lines_from [] s else lines_from (cur ++ [c]) s
  end.
Definition lines (s : list ascii) : list (list ascii) := lines_from [] s.

Section Sections.
Variable H : Type.
Variable open : list ascii -> option (list ascii).
Variable header_of : list ascii -> outcome H.
Variable header_hdu : list ascii -> nat -> outcome H.
(* 70-72 *)
Definition named (line : list ascii) : bool := match line with [] => false | c :: _ => negb (Ascii.eqb c "#"%char) end.
(* 60-83 *)
Definition read_sectfits (filename : list ascii) : outcome (list (list ascii)) :=
  match open filename with
  | None => Throws
  | Some content =>
      dir <- get_directory filename ;;
      let files := map (fun l => dir ++ l) (filter named (lines content)) in
      match files with [] => Throws | _ => Ok files end
  end.
(* 95-105 *)
Definition read_header_sectfits (filename : list ascii) (sect : nat) : outcome H :=
  e <- ends_with filename (list_ascii_of_string ".sectfits") ;;
  if e : bool then
    sects <- read_sectfits filename ;;
    _ <- check (sect <? length sects) ;;
    f <- oget sects sect ;; header_of f
  else header_of filename.
(* 107-120 *)
Definition read_header_sectfits_hdu (filename : list ascii) (sect hdu : nat) : outcome H :=
  e <- ends_with filename (list_ascii_of_string ".sectfits") ;;
  if e : bool then
    sects <- read_sectfits filename ;;
    _ <- check (sect <? length sects) ;;
    f <- oget sects sect ;; header_hdu f hdu
  else header_hdu filename hdu.
End Sections.

(* v[i], with its check *)
Definition at_checked {A} (v : list A) (i : nat) : outcome A := _ <- check (i <? length v) ;; oget v i.
(* the branches on id; show gives what is printed for a candidate *)
Definition choose (id : list nat) (show : nat -> outcome unit) (bid : nat) : outcome (bool * nat) :=
  match id with
  | [] => Ok (false, bid)
  | [i] => Ok (true, i)
  | _ => _ <- omapl show id ;; Ok (false, bid)
  end.
Definition ignore {A} (o : outcome A) : outcome unit := _ <- o ;; Ok tt.
(* 1139-1155 *)
Definition get_band (bands : list (list ascii)) (band : RegModel.pattern) (bid : nat) : outcome (bool * nat) :=
  choose (OrderModel.where_ (RegModel.regex_match_vec bands band)) (fun b => ignore (at_checked bands b)) bid.
(* 1157-1175 and 1219-1236; && of two arrays *)
Definition and_vec (a b : list bool) : outcome (list bool) :=
  _ <- check (length a =? length b) ;; Ok (map (fun '(x, y) => x && y) (combine a b)).
Definition get_band_note (bands notes : list (list ascii)) (band note : RegModel.pattern) (bid : nat) : outcome (bool * nat) :=
  m <- and_vec (RegModel.regex_match_vec bands band) (RegModel.regex_match_vec notes note) ;;
  choose (OrderModel.where_ m) (fun b => _ <- ignore (at_checked bands b) ;; ignore (at_checked notes b)) bid.
(* 1179-1187, 1200-1217; notes is None if the catalog has no such member *)
Definition get_band_cat (bands : list (list ascii)) (notes : option (list (list ascii))) (band : RegModel.pattern) (bid : nat) : outcome (bool * nat) :=
  let notes := match notes with Some n => n | None => repeat (list_ascii_of_string "?") (length bands) end in
  choose (OrderModel.where_ (RegModel.regex_match_vec bands band)) (fun b => _ <- ignore (at_checked bands b) ;; ignore (at_checked notes b)) bid.
