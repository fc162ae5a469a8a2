(* What the user of make_wcs_header gives, and what must be in the header. *)
From Coq Require Import Ascii String.
From Verif Require Import Base StrModel WcshModel KeySpec.
Local Open Scope list_scope.

(* a header: cards of 80 characters, the last of which is END *)
Definition header (hdr : list ascii) : Prop := exists body, cards body /\ hdr = concat (body ++ [end_card]).
(* a text that fits on a card, and is read back as it is *)
Definition plain (t : list ascii) : Prop := bare t /\ ~ In "/"%char t /\ List.length t <= 67.

(* the small letter of a letter *)
Definition small (c d : ascii) : Prop :=
  (65 <= nat_of_ascii c <= 90 /\ nat_of_ascii d = nat_of_ascii c + 32) \/ (~ (65 <= nat_of_ascii c <= 90) /\ d = c).

Section Wcs.
Variable V : Type.
Variable finite : V -> bool.
Variables neg_scale pos_scale : V -> V.
Variable epoch nan : V.
Variable show : V -> list ascii.
Variable showu : N -> list ascii.
Variable parse : list ascii -> option V.
Variable parseu : list ascii -> option N.

(* the text of each keyword, None for the keywords that are left as they are *)
Definition expected (p : params V) (key : list ascii) : option (list ascii) :=
  let is s := if list_eq_dec ascii_dec key (list_ascii_of_string s) then true else false in
  let sc := finite (scale p) in
  let pix := finite (px p) && finite (py p) in
  let sky := finite (ra p) && finite (dec p) in
  let dim := negb (N.eqb (dx p) (2 ^ 64 - 1)) && negb (N.eqb (dy p) (2 ^ 64 - 1)) in
  if sc && is "CDELT1"%string then Some (show (neg_scale (scale p)))
  else if sc && is "CDELT2"%string then Some (show (pos_scale (scale p)))
  else if sc && is "CTYPE1"%string then Some (list_ascii_of_string "'RA---TAN'")
  else if sc && is "CTYPE2"%string then Some (list_ascii_of_string "'DEC--TAN'")
  else if sc && is "EQUINOX"%string then Some (show epoch)
  else if pix && is "CRPIX1"%string then Some (show (px p))
  else if pix && is "CRPIX2"%string then Some (show (py p))
  else if sky && is "CRVAL1"%string then Some (show (ra p))
  else if sky && is "CRVAL2"%string then Some (show (dec p))
  else if dim && is "NAXES"%string then Some (showu 2%N)
  else if dim && is "META_0"%string then Some (showu 2%N)
  else if dim && (is "NAXIS1"%string || is "META_1"%string) then Some (showu (dx p))
  else if dim && (is "NAXIS2"%string || is "META_2"%string) then Some (showu (dy p))
  else None.

(* one parameter, and its text NAME:value, whatever the case of the name and the blanks around it *)
Inductive setting := Scale (x : V) | PixelRef (x y : V) | SkyRef (x y : V) | Dims (m n : N).
Definition called (nm : list ascii) (s : string) : Prop :=
  exists low, Forall2 small nm low /\ stripped low (list_ascii_of_string s).
Definition pair {A} (f : list ascii -> option A) (val : list ascii) (x y : A) : Prop :=
  exists a b, val = a ++ ","%char :: b /\ ~ In ","%char a /\ ~ In ","%char b /\ f a = Some x /\ f b = Some y.
Definition written (t : list ascii) (s : setting) : Prop :=
  exists nm val, t = nm ++ ":"%char :: val /\ ~ In ":"%char nm /\ ~ In ":"%char val /\
    match s with
    | Scale x => called nm "pixel_scale" /\ parse val = Some x
    | PixelRef x y => called nm "pixel_ref" /\ pair parse val x y
    | SkyRef x y => called nm "sky_ref" /\ pair parse val x y
    | Dims m n => called nm "dims" /\ pair parseu val m n
    end.
Definition apply (p : params V) (s : setting) : params V :=
  match s with
  | Scale x => Params x (ra p) (dec p) (px p) (py p) (dx p) (dy p)
  | PixelRef x y => Params (scale p) (ra p) (dec p) x y (dx p) (dy p)
  | SkyRef x y => Params (scale p) x y (px p) (py p) (dx p) (dy p)
  | Dims m n => Params (scale p) (ra p) (dec p) (px p) (py p) m n
  end.
Definition unset : params V := Params nan nan nan nan nan (2 ^ 64 - 1)%N (2 ^ 64 - 1)%N.
End Wcs.
