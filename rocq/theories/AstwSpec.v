(* The axes of an image and positions on them, in the order of FITS: axis 0 is the fastest one.  In the order of
   the arrays, axis f is the dimension n-1-f. *)
From Coq Require Import Ascii String QArith Qcanon.
From Verif Require Import Base AstwModel.
From Verif Require StrSpec KeySpec.
Local Open Scope list_scope.
Local Open Scope nat_scope.
Notation length := List.length.

Definition word (s : string) : list ascii := list_ascii_of_string s.
(* t is the text before the first hyphen, or the whole text *)
Definition kind_of (s t : list ascii) : Prop := ~ In "-"%char t /\ (s = t \/ exists r, s = t ++ "-"%char :: r).
Definition axis_is (p : prm) (f : nat) (t : list ascii) : Prop := exists s, nth_error (ctype p) f = Some s /\ kind_of s t.
Definition first_axis (p : prm) (t : list ascii) (f : nat) : Prop := axis_is p f t /\ forall g, g < f -> ~ axis_is p g t.
(* the first axis of right ascension is i, the first one of declination is j *)
Definition celestial (p : prm) (i j : nat) : Prop := first_axis p (word "RA") i /\ first_axis p (word "DEC") j.
(* what WCSLIB gives *)
Definition consistent (p : prm) : Prop :=
  (Z.of_nat (naxis p) < 2 ^ 31)%Z /\
  length (cunit p) = naxis p /\ length (crpix p) = naxis p /\ length (crval p) = naxis p /\
  (forall v, length v = naxis p -> length (p2s p v) = naxis p) /\ (forall v, length v = naxis p -> length (s2p p v) = naxis p).
Definition type_of (t : list ascii) (y : axis_type) : Prop :=
  match y with
  | spatial => t = word "RA" \/ t = word "DEC"
  | wave => t = word "WAVE"
  | freq => t = word "FREQ"
  | unknown => ~ In t (map word ["RA"; "DEC"; "WAVE"; "FREQ"]%string)
  end.

(* a point with the coordinate a at axis i, b at axis j, and 0 at the others *)
Definition point (n i j : nat) (a b : Qc) (v : list Qc) : Prop :=
  length v = n /\ nth_error v i = Some a /\ nth_error v j = Some b /\ forall k, k < n -> k <> i -> k <> j -> nth_error v k = Some (Q2Qc 0).
(* the coordinates x, y of f of each point (a, b) *)
Definition images (f : list Qc -> list Qc) (n i j i' j' : nat) (a b x y : list Qc) : Prop :=
  length x = length a /\ length y = length a /\
  forall k s t, nth_error a k = Some s -> nth_error b k = Some t -> exists v, point n i j s t v /\
    nth_error x k = nth_error (f v) i' /\ nth_error y k = nth_error (f v) j'.
(* an array that can be in memory, with n numbers for each element *)
Definition fits (n : nat) (u : pts) : Prop := length (pdata u) = nprod (pdims u) /\ (Z.of_nat (length (pdata u) * n) < 2 ^ 63)%Z.
(* the coordinates i, j of u are found back by g from those of f u, whatever the others *)
Definition undone (f g : list Qc -> list Qc) (n i j : nat) : Prop := forall u v, length u = n -> length v = n ->
  (forall k, k = i \/ k = j -> nth_error v k = nth_error (f u) k) -> forall k, k = i \/ k = j -> nth_error (g v) k = nth_error u k.

(* the size of a unit, in metres, hertz or degrees; half a turn is pi radians *)
Definition size_of (pi : Qc) (u : axis_unit) : Qc :=
  match u with
  | wave_m | freq_Hz | sky_deg | native | wcslib_default => Q2Qc 1
  | wave_cm => Q2Qc (1 # 100) | wave_mm => Q2Qc (1 # 1000) | wave_um => Q2Qc (1 # 1000000)
  | wave_nm => Q2Qc (1 # 1000000000) | wave_Angstrom => Q2Qc (1 # 10000000000)
  | freq_kHz => Q2Qc 1000 | freq_MHz => Q2Qc 1000000 | freq_GHz => Q2Qc 1000000000 | freq_THz => Q2Qc 1000000000000
  | sky_rad => (Q2Qc 180 / pi)%Qc
  end.
Definition measures (u : axis_unit) (y : axis_type) : Prop :=
  match u with
  | native | wcslib_default => True
  | wave_m | wave_cm | wave_mm | wave_um | wave_nm | wave_Angstrom => y = wave \/ y = unknown
  | freq_Hz | freq_kHz | freq_MHz | freq_GHz | freq_THz => y = freq \/ y = unknown
  | sky_deg | sky_rad => y = spatial \/ y = unknown
  end.
(* a unit for an axis: native for an axis without unit, anything of the right type for another one *)
Definition allowed (a : wcs) (d : nat) (u : axis_unit) : Prop :=
  exists h y, nth_error (has_unit a) d = Some h /\ nth_error (type a) d = Some y /\ (h = true <-> u <> native) /\ measures u y.
(* the other axes at their reference *)
Definition on_axis (ref : list Qc) (f : nat) (x : Qc) (v : list Qc) : Prop :=
  length v = length ref /\ nth_error v f = Some x /\ forall k, k <> f -> nth_error v k = nth_error ref k.
(* the axis f does not depend on the others, and is converted back *)
Definition alone (p : prm) (f : nat) : Prop := forall u v, length u = naxis p -> length v = naxis p ->
  nth_error v f = nth_error (p2s p u) f -> nth_error (s2p p v) f = nth_error u f.
