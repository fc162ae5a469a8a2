(* What the conversion of a flux to a luminosity should be. *)
From Coq Require Import QArith.
From Verif Require Import Base InterpSpec FluxSpec.
Local Open Scope nat_scope.

(* the flux in microjansky of the luminosity lum (solar luminosities) emitted at lam micrometers, at
   redshift z and luminosity distance d (megaparsecs): nu L_nu = 4 pi d^2 nu S_nu *)
Definition seen (dpi z d lam lum flx : Q) : Prop :=
  (flx / 10 ^ 32 * (4 * dpi * ((d * (30856 * 10 ^ 18)) * (d * (30856 * 10 ^ 18)))) * (299790 * 10 ^ 9)
   == lum * (3839 * 10 ^ 23) * (lam * (1 + z)))%Q.
Definition observed (dpi z d : Q) (lam sed flx : list Q) : Prop :=
  length flx = length lam /\
  forall i l s f, nth_error lam i = Some l -> nth_error sed i = Some s -> nth_error flx i = Some f -> seen dpi z d l s f.
(* the wavelengths received *)
Definition redshifted (z : Q) (lam : list Q) : list Q := map (fun l => l * (1 + z))%Q lam.
(* a filter: increasing wavelengths, a response for each *)
Definition filter (f : list Q * list Q) : Prop := increasing (fst f) /\ 2 <= length (fst f) /\ length (fst f) = length (snd f).
(* the wavelengths lam start at or before the filter and end after it *)
Definition covers (lam : list Q) (f : list Q * list Q) : Prop :=
  exists f0 fl l0 ll, first_last (fst f) f0 fl /\ first_last lam l0 ll /\ (l0 <= f0)%Q /\ (fl < ll)%Q.
(* they start after the filter does, or end within it *)
Definition cut (lam : list Q) (f : list Q * list Q) : Prop :=
  exists f0 fl l0 ll, first_last (fst f) f0 fl /\ first_last lam l0 ll /\ ((f0 < l0)%Q \/ ((f0 < ll)%Q /\ (ll < fl)%Q)).
