(* Parsed FITS headers.  Source: include/vif/io/fits/base.hpp 897-1018 (parse_header,
   serialize_header); include/vif/astro/wcs.hpp 207-230 (filter_wcs).

   A header is a text of less than 2^24 characters (see [cut] in StrModel.v). *)
From Coq Require Import Ascii String.
From Verif Require Import Base StrModel.
Local Open Scope list_scope.
Local Open Scope nat_scope.
Notation length := List.length.

Notation str := (list ascii) (only parsing).
(* 897-900 *)
Record keyword := Keyword { key : str; value : str; comment : str; novalue : bool }.
Definition lit (s : string) : str := list_ascii_of_string s.
Definition quote : ascii := "'"%char.
Definition starts (p s : str) : bool := match sfind p s 0 with Some 0 => true | _ => false end.
(* s.back(): not defined for an empty string *)
Definition back (s : str) : outcome ascii := match s with [] => UB | _ => Ok (last s " "%char) end.
(* s.find_first_of('\'', 1) *)
Definition second_quote (s : str) : option nat := find_first (has [quote]) s (Some 1).

(* 914-941: a continuation of the last keyword *)
Definition continue_ (k : keyword) (line : str) : outcome keyword :=
  right <- substr_end line 10 ;;
  right <- trim right blanks ;;
  match right with
  | c :: _ =>
      if Ascii.eqb c quote then
        ' (val, com) <- match second_quote right with
                        | Some p2 =>
                            v <- substr right 1 (p2 - 1) ;; v <- trim v blanks ;;
                            w <- substr_end right (p2 + 1) ;; w <- trim w blanks ;;
                            Ok (v, w)
                        | None => v <- trim right blanks ;; Ok (v, comment k)
                        end ;;
        (* size - 2 wraps for a lone quote: everything after it, that is nothing *)
        old <- match value k with
               | c :: _ => if Ascii.eqb c quote
                           then substr (value k) 1 (if length (value k) <? 2 then length (value k) else length (value k) - 2)
                           else Ok (value k)
               | [] => Ok []
               end ;;
        z <- back old ;;
        old <- (if Ascii.eqb z "&"%char then substr old 0 (length old - 1) else Ok old) ;;
        z <- back val ;;
        val <- (if Ascii.eqb z "&"%char then substr val 0 (length val - 1) else Ok val) ;;
        Ok (Keyword (key k) ([quote] ++ old ++ val ++ [quote]) com (novalue k))
      else Ok k
  | [] => Ok k
  end.
(* 942-978 *)
Definition read_card (line : str) : outcome keyword :=
  match find_first (has (lit "=/")) line (Some 0) with
  | None => k <- trim line blanks ;; Ok (Keyword k [] [] true)
  | Some p =>
      z <- oget line p ;;
      k <- substr line 0 p ;; k <- trim k blanks ;;
      if Ascii.eqb z "/"%char then
        c <- substr_end line p ;; c <- trim c blanks ;; Ok (Keyword k [] c true)
      else
        right <- substr_end line (p + 1) ;; right <- trim right blanks ;;
        match right with
        | [] => Ok (Keyword k [] [] false)
        | c :: _ =>
            let p2 := if Ascii.eqb c quote then option_map (fun p => p + 1) (second_quote right)
                      else find_first (has ["/"%char]) right (Some 0) in
            match p2 with
            | Some p2 =>
                v <- substr right 0 p2 ;; v <- trim v blanks ;;
                w <- substr_end right p2 ;; w <- trim w blanks ;;
                Ok (Keyword k v w false)
            | None => v <- trim right blanks ;; Ok (Keyword k v [] false)
            end
        end
  end.
(* one line, 908-979; keys.back() is not defined if there is no key *)
Definition read_line (keys : list keyword) (line : str) : outcome (list keyword) :=
  if starts (lit "HISTORY ") line then
    k <- trim line blanks ;; Ok (keys ++ [Keyword k [] [] true])
  else if starts (lit "CONTINUE ") line then
    match rev keys with
    | [] => UB
    | k :: r => k <- continue_ k line ;; Ok (rev r ++ [k])
    end
  else k <- read_card line ;; Ok (keys ++ [k]).
(* 904-983 *)
Definition parse_header (hdr : str) : outcome (list keyword) :=
  lines <- cut hdr 80 ;; ofold read_line lines [].

(* 988-1011: one card; k.value[0] of an empty string is the null character *)
Definition write_card (k : keyword) : outcome str :=
  entry <- (if negb (novalue k) then
              h <- begins_with (key k) (lit "HIERARCH ") ;;
              Ok (if h : bool then key k ++ lit " = " ++ value k
                  else align_left (key k) 8 " "%char ++ lit "= " ++
                    match value k with
                    | c :: _ => if Ascii.eqb c quote then align_left (value k) 20 " "%char else align_right (value k) 20 " "%char
                    | [] => align_right (value k) 20 " "%char
                    end)
            else Ok (align_left (key k) 30 " "%char)) ;;
  let entry := entry ++ match comment k with [] => [] | c => lit " " ++ c end in
  if 80 <? length entry then substr entry 0 80
  else Ok (if length entry <? 80 then entry ++ repeat " "%char (80 - length entry) else entry).
(* 985-1018 *)
Definition serialize_header (keys : list keyword) : outcome str :=
  ofold (fun hdr k => e <- write_card k ;; Ok (hdr ++ e)) keys [].

(* astro/wcs.hpp 209-213 *)
Definition wcs_keywords : list str := map lit
  ["RA"; "DEC"; "EPOCH"; "EQUINOX"; "RADECSYS"; "SECPIX"; "IMWCS";
   "CD1_1"; "CD1_2"; "CD2_1"; "CD2_2"; "PC1_1"; "PC1_2"; "PC2_1"; "PC2_2";
   "PC001001"; "PC001002"; "PC002001"; "PC002002"; "LATPOLE"; "LONPOLE";
   "SECPIX"; "CTYPE"; "CRVAL"; "CDELT"; "CRPIX"; "CROTA";
   "CUNIT"; "CO1_"; "CO2_"; "PROJP"; "PV1_"; "PV2_"; "END"]%string.
(* astro/wcs.hpp 207-226 *)
Definition filter_wcs (hdr : str) : outcome str :=
  okeys <- cut hdr 80 ;;
  nkeys <- ofold (fun nkeys k =>
             ofold (fun nkeys wk => b <- begins_with k wk ;; Ok (if b : bool then nkeys ++ [k] else nkeys)) wcs_keywords nkeys)
             okeys [] ;;
  Ok (collapse nkeys).
