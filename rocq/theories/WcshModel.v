(* Headers with astrometry made from simple parameters.  Source: include/vif/astro/wcs.hpp 21-211
   (make_wcs_header_params, make_wcs_header in its two forms).

   The type of the doubles is a parameter V, with is_finite, the division of the scale by 3600 with and
   without a change of sign, the text written by setkey for a double and for an unsigned integer, and the
   two from_string.  npos is a parameter value of the unsigned integers (N).  Messages are not modelled. *)
From Coq Require Import Ascii String.
From Verif Require Import Base StrModel KeyModel.
Local Open Scope list_scope.

Definition lit (s : string) : list ascii := list_ascii_of_string s.
Definition npos : N := 18446744073709551615.
Definition lower (c : ascii) : ascii :=
  let n := nat_of_ascii c in if (65 <=? n) && (n <=? 90) then ascii_of_nat (n + 32) else c.

Section Wcs.
Variable V : Type.
Variable finite : V -> bool.
Variables neg_scale pos_scale : V -> V.      (* -x/3600.0, x/3600.0 *)
Variable epoch nan : V.                      (* 2000.0, dnan *)
Variable show : V -> list ascii.
Variable showu : N -> list ascii.
Variable parse : list ascii -> option V.
Variable parseu : list ascii -> option N.

(* 21-30 *)
Record params := Params { scale : V; ra : V; dec : V; px : V; py : V; dx : N; dy : N }.
Definition default : params := Params nan nan nan nan nan npos npos.

Fixpoint set_all (hdr : list ascii) (l : list (string * list ascii)) : outcome (bool * list ascii) :=
  match l with
  | [] => Ok (true, hdr)
  | (k, v) :: l =>
      ' (ok, hdr) <- setkey hdr (lit k) v [] ;;
      if ok then set_all hdr l else Ok (false, hdr)
  end.
(* 33-121 *)
Definition make_header (p : params) (hdr : list ascii) : outcome (bool * list ascii) :=
  let hdr := match hdr with [] => lit "END" ++ repeat " "%char 77 | _ => hdr end in
  ' (ok, hdr) <- (if finite (scale p) then
      set_all hdr [("CDELT1"%string, show (neg_scale (scale p))); ("CDELT2"%string, show (pos_scale (scale p)));
                   ("CTYPE1"%string, lit "'RA---TAN'"); ("CTYPE2"%string, lit "'DEC--TAN'"); ("EQUINOX"%string, show epoch)]
    else Ok (true, hdr)) ;;
  if negb ok then Ok (false, hdr) else
  ' (ok, hdr) <- (if finite (px p) && finite (py p) then
      set_all hdr [("CRPIX1"%string, show (px p)); ("CRPIX2"%string, show (py p))]
    else Ok (true, hdr)) ;;
  if negb ok then Ok (false, hdr) else
  ' (ok, hdr) <- (if finite (ra p) && finite (dec p) then
      set_all hdr [("CRVAL1"%string, show (ra p)); ("CRVAL2"%string, show (dec p))]
    else Ok (true, hdr)) ;;
  if negb ok then Ok (false, hdr) else
  if negb (N.eqb (dx p) npos) && negb (N.eqb (dy p) npos) then
    set_all hdr [("NAXES"%string, showu 2); ("NAXIS1"%string, showu (dx p)); ("NAXIS2"%string, showu (dy p));
                 ("META_0"%string, showu 2); ("META_1"%string, showu (dx p)); ("META_2"%string, showu (dy p))]
  else Ok (true, hdr).

(* 124-207: one string; None is a failure *)
Definition pair_of {A} (f : list ascii -> option A) (s : list ascii) : outcome (option (A * A)) :=
  t <- split s [","%char] ;;
  match t with
  | [a; b] => match f a with None => Ok None | Some x => match f b with None => Ok None | Some y => Ok (Some (x, y)) end end
  | _ => Ok None
  end.
Definition read_param (p : params) (s : list ascii) : outcome (option params) :=
  spl <- split s [":"%char] ;;
  match spl with
  | [nm; val] =>
      nm <- trim (map lower nm) blanks ;;
      if same_str nm (lit "pixel_scale") then
        match parse val with
        | Some x => Ok (Some (Params x (ra p) (dec p) (px p) (py p) (dx p) (dy p)))
        | None => Ok None
        end
      else if same_str nm (lit "pixel_ref") then
        r <- pair_of parse val ;;
        match r with Some (x, y) => Ok (Some (Params (scale p) (ra p) (dec p) x y (dx p) (dy p))) | None => Ok None end
      else if same_str nm (lit "sky_ref") then
        r <- pair_of parse val ;;
        match r with Some (x, y) => Ok (Some (Params (scale p) x y (px p) (py p) (dx p) (dy p))) | None => Ok None end
      else if same_str nm (lit "dims") then
        r <- pair_of parseu val ;;
        match r with Some (x, y) => Ok (Some (Params (scale p) (ra p) (dec p) (px p) (py p) x y)) | None => Ok None end
      else Ok None
  | _ => Ok None
  end.
Fixpoint read_params (p : params) (l : list (list ascii)) : outcome (option params) :=
  match l with
  | [] => Ok (Some p)
  | s :: l => r <- read_param p s ;; match r with Some p => read_params p l | None => Ok None end
  end.
(* 124-211 *)
Definition make_header_from (l : list (list ascii)) (hdr : list ascii) : outcome (bool * list ascii) :=
  r <- read_params default l ;;
  match r with Some p => make_header p hdr | None => Ok (false, hdr) end.
End Wcs.
Arguments scale {V}. Arguments ra {V}. Arguments dec {V}. Arguments px {V}. Arguments py {V}. Arguments dx {V}. Arguments dy {V}.
Arguments Params {V}.
