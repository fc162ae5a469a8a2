(* Cosmological functions of vecs: include/vif/astro/astro.hpp 290-330 (cosmologies), 342-388 (the
   functions of one redshift) and 394-424 (VECTORIZE_INTERPOL).  A redshift is a rational number or NaN
   (None); results that are not finite are None.  The values of a function at positive redshifts, at
   0 (and below) and at NaN are parameters, as is rgen_log() (math/base.hpp 216-231).  The arithmetic is
   exact. *)
From Coq Require Import QArith String Ascii.
From Verif Require Import Base InterpModel ReduceModel.
Local Open Scope nat_scope.

(* 290-295, 297-322 *)
Record cosmo := Cosmo { H0 : Q; wL : Q; wm : Q; wk : Q }.
Definition cosmo_default : cosmo := Cosmo 70 (73 # 100) (27 # 100) 0.
Definition cosmo_wmap : cosmo := Cosmo 70 (73 # 100) (27 # 100) 0.
Definition cosmo_plank : cosmo := Cosmo (678 # 10) (692 # 1000) (308 # 1000) 0.
Definition cosmo_std : cosmo := Cosmo 70 (7 # 10) (3 # 10) 0.
(* 324-337: the cosmology and whether there is a warning *)
Definition get_cosmo (name : string) : cosmo * bool :=
  if String.eqb name "wmap" then (cosmo_wmap, false)
  else if String.eqb name "plank" then (cosmo_plank, false)
  else if String.eqb name "std" then (cosmo_std, false)
  else (cosmo_default, true).
(* 339-341 *)
Definition cosmo_list : list string := ["std"; "wmap"; "plank"]%string.

Section Vectorize.
Variable f : Q -> Q.
Variable at0 : option Q.
Variable at_nan : option Q.
Variable rgen_log : Q -> Q -> nat -> outcome (list Q).

(* 346, 360, 372, 385: if (z <= 0) return ... *)
Definition one (z : option Q) : option Q :=
  match z with
  | Some q => if Qle_bool q 0 then at0 else Some (f q)
  | None => at_nan
  end.
(* where(z > 0), where(z <= 0): false for NaN *)
Definition positive_z (z : option Q) : bool := match z with Some q => qlt 0 q | None => false end.
Definition null_z (z : option Q) : bool := match z with Some q => Qle_bool q 0 | None => false end.
Definition where_ (p : option Q -> bool) (z : list (option Q)) : list nat :=
  filter (fun i => match nth_error z i with Some x => p x | None => false end) (seq 0 (length z)).
(* z[idz], finite values *)
Definition values (z : list (option Q)) (ids : list nat) : outcome (list Q) :=
  omapl (fun i => x <- oget z i ;; match x with Some q => Ok q | None => CheckFail end) ids.
(* 394-424 *)
Definition vectorized (npt : nat) (z : list (option Q)) : outcome (list (option Q)) :=
  if length z <? 2 * npt then Ok (map one z)
  else
    let idz := where_ positive_z z in
    zp <- values z idz ;;
    mi <- omap snd (min_ qlt zp) ;;
    ma <- omap snd (min_ (fun a b => qlt b a) zp) ;;
    tz <- rgen_log mi ma npt ;;
    let td := map f tz in
    v <- interp_vec td tz zp ;;
    r <- ofold (fun r '(i, x) => oset r i x) (combine idz v) (repeat (Some 0%Q) (length z)) ;;
    ofold (fun r i => oset r i at0) (where_ null_z z) r.
End Vectorize.
