(* Factor from an observed flux to a luminosity.  Source: include/vif/astro/astro.hpp 1358-1368
   (sed_convert, over lsun2uJy 431-442 and sed2flux 1294-1343).  Numbers are exact rationals; [None]
   is a result that is not a finite number.  A distance of zero, for which the flux is infinite, is
   not modelled: it gives None here. *)
From Coq Require Import QArith.
From Verif Require Import Base InterpModel FluxModel.
From Verif Require UnitModel.
Local Open Scope nat_scope.

(* lsun2uJy of two vectors: factor*(1.0 + z)*lam*lum/(d*d); the product checks the dimensions *)
Fixpoint all_some (l : list (option Q)) : option (list Q) :=
  match l with
  | [] => Some []
  | None :: _ => None
  | Some a :: l => option_map (cons a) (all_some l)
  end.
Definition fluxes (dpi z d : Q) (lam sed : list Q) : outcome (option (list Q)) :=
  _ <- check (length lam =? length sed) ;;
  Ok (all_some (map (fun p => UnitModel.lsun2uJy dpi z d (fst p) (snd p)) (combine lam sed))).
(* 1358-1368; a filter is the pair of its wavelengths and responses *)
Definition sed_convert (dpi : Q) (from to : list Q * list Q) (z d : Q) (lam sed : list Q) : outcome (option Q) :=
  let rflam := map (fun l => l * (1 + z))%Q lam in
  rfsed <- fluxes dpi z d lam sed ;;
  match rfsed with
  | None => Ok None
  | Some rfsed =>
      flx <- sed2flux (fst from) (snd from) rflam rfsed ;;
      ref <- sed2flux (fst to) (snd to) lam sed ;;
      Ok (match ref, flx with Some r, Some f => qdiv r f | _, _ => None end)
  end.
