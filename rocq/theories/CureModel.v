(* Headers made acceptable for WCSLIB.  Source: include/vif/astro/wcs.hpp 236-296 (cure_header), over
   parse_header and serialize_header (HdrModel.v) and regex_match (RegModel.v), with the syntax trees of the
   patterns.  What is printed is not modelled. *)
From Coq Require Import Ascii String.
From Verif Require Import Base StrModel.
From Verif Require Import HdrModel.
From Verif Require RegModel.
Local Open Scope list_scope.
Local Open Scope nat_scope.
Import RegModel (re, Chars, Seq, Alt, Plus, Opt, Text, Pattern, pattern, regex_match).

Definition digit (c : ascii) : bool := let n := nat_of_ascii c in (48 <=? n) && (n <=? 57).
Definition digits : re := Plus (Chars digit).
Definition one_of (s : string) : re := Chars (fun c => existsb (Ascii.eqb c) (lit s)).
(* ^CUNIT[0-9]+$ *)
Definition unit_key : pattern := Pattern true (Seq (Text "CUNIT") digits) true.
(* ^C[PQ]DIS[0-9]+$ and Lookup *)
Definition lookup_key : pattern := Pattern true (Seq (Text "C") (Seq (one_of "PQ") (Seq (Text "DIS") digits))) true.
Definition lookup_value : pattern := Pattern false (Text "Lookup") false.
(* ^[AB]P?_([0-9]+_[0-9]+|ORDER)$ *)
Definition sip_key : pattern :=
  Pattern true (Seq (one_of "AB") (Seq (Opt (Text "P")) (Seq (Text "_") (Alt (Seq digits (Seq (Text "_") digits)) (Text "ORDER"))))) true.
(* ^(D[PQ]|D2IM|(C[PQ]|D2IM)(ERR|DIS|EXT))[0-9]+$ *)
Definition distortion_key : pattern :=
  Pattern true (Seq (Alt (Seq (Text "D") (one_of "PQ")) (Alt (Text "D2IM")
     (Seq (Alt (Seq (Text "C") (one_of "PQ")) (Text "D2IM")) (Alt (Text "ERR") (Alt (Text "DIS") (Text "EXT")))))) digits) true.

Definition same_text (a b : str) : bool := if list_eq_dec ascii_dec a b then true else false.
(* 245-271: the keyword, with cpdis_err and sipdis_err *)
Definition cure_step (st : list keyword * bool * bool) (k : keyword) : outcome (list keyword * bool * bool) :=
  let '(l, cp, sip) := st in
  if regex_match (key k) unit_key then
    v <- trim (value k) (lit "' ") ;;
    let nv := if same_text v (lit "micron") || same_text v (lit "microns") then lit "'um'"
              else if same_text v (lit "degree") || same_text v (lit "degrees") then lit "'deg'"
              else value k in
    Ok (l ++ [Keyword (key k) nv (comment k) (novalue k)], cp, sip)
  else if regex_match (key k) lookup_key && regex_match (value k) lookup_value then Ok (l ++ [k], true, sip)
  else if regex_match (key k) sip_key then Ok (l ++ [k], cp, true)
  else Ok (l ++ [k], cp, sip).
(* 238-293 *)
Definition cure_keys (ks : list keyword) : outcome (list keyword) :=
  ' (l, cp, sip) <- ofold cure_step ks ([], false, false) ;;
  let keep := map (fun k => negb (cp && regex_match (key k) distortion_key) && negb (sip && regex_match (key k) sip_key)) l in
  Ok (map fst (filter snd (combine l keep))).
(* 236-296 *)
Definition cure_header (hdr : str) : outcome str :=
  ks <- parse_header hdr ;; ks <- cure_keys ks ;; serialize_header ks.
