(* Fitting templates to fluxes.  Source: include/vif/astro/template_fit.hpp, template_fit (130-342),
   without upper limits.  The fluxes of the templates in the bands (template_observed, 139-143) and
   the random numbers are inputs.  Arithmetic is exact; the errors are not 0 (the quotient of
   rationals is total).  None is NaN: with errors that are not 0 an amplitude is not finite only
   for a template that is 0 in all bands, and it is then 0/0. *)
From Coq Require Import QArith.
From Verif Require Import Base ReduceModel.
Local Open Scope nat_scope.

(* an operator on two vectors checks their sizes *)
Definition zipq (f : Q -> Q -> Q) (a b : list Q) : outcome (list Q) :=
  _ <- check (length a =? length b) ;; Ok (map (fun p => f (fst p) (snd p)) (combine a b)).
(* total *)
Definition totalq (l : list Q) : Q := fold_left Qplus l 0%Q.
(* invsqr *)
Definition invsqr (e : Q) : Q := (1 / (e * e))%Q.
Definition sqrq (x : Q) : Q := (x * x)%Q.

(* the comparison of min_id: NaN is larger than all numbers (vec.hpp, comparator_less) *)
Definition olt (a b : option Q) : bool :=
  match a, b with
  | Some x, Some y => negb (Qle_bool y x)
  | Some _, None => true
  | None, _ => false
  end.
Definition min_index (l : list (option Q)) : outcome nat := omap fst (min_ olt l).

(* 285, 317: total(weight*flux*tmp); 286 with tmp for flux *)
Definition wdot (w y t : list Q) : outcome Q :=
  wy <- zipq Qmult w y ;; p <- zipq Qmult wy t ;; Ok (totalq p).
(* 289, 320 *)
Definition ampq (s1 s2 : Q) : option Q := if Qeq_bool s2 0 then None else Some (s1 / s2)%Q.
(* 294, 326: total(weight*sqr(flux - amp*template)) *)
Definition chi2_scaled (w y t : list Q) (a : option Q) : outcome (option Q) :=
  d <- zipq Qminus y (map (Qmult (match a with Some a => a | None => 0%Q end)) t) ;;
  p <- zipq Qmult w (map sqrq d) ;;
  Ok (match a with Some _ => Some (totalq p) | None => None end).
(* 298, 330 *)
Definition chi2_plain (w y t : list Q) : outcome (option Q) :=
  d <- zipq Qminus y t ;; p <- zipq Qmult w (map sqrq d) ;; Ok (Some (totalq p)).

(* 281-299 and 315-332: the amplitudes and chi2 of all templates *)
Definition fit_all (renorm : bool) (w y : list Q) (tpl : list (list Q)) : outcome (list (option Q) * list (option Q)) :=
  s1 <- omapl (wdot w y) tpl ;;
  s2 <- omapl (fun t => wdot w t t) tpl ;;
  let amp := map (fun p => ampq (fst p) (snd p)) (combine s1 s2) in
  chi2 <- omapl (fun p => if renorm then chi2_scaled w y (fst p) (snd p) else chi2_plain w y (fst p)) (combine tpl amp) ;;
  Ok (amp, chi2).

(* 85-94 *)
Record tres := Tres { t_bfit : nat; t_chi2 : list (option Q); t_amp : list (option Q); t_flux : list (list (option Q));
                      t_sed_sim : list nat; t_amp_bfit_sim : list (option Q); t_amp_sim : list (option Q) }.

(* 278-339; noise holds the random numbers of each realization (nflux of them) *)
Definition template_fit (renorm : bool) (tpl : list (list Q)) (flux err : list Q) (noise : list (list Q)) : outcome tres :=
  let w := map invsqr err in
  ' (amp, chi2) <- fit_all renorm w flux tpl ;;
  bfit <- min_index chi2 ;;
  sims <- omapl (fun n =>
      ne <- zipq Qmult n err ;; fsim <- zipq Qplus flux ne ;;
      ' (amp, chi2) <- fit_all renorm w fsim tpl ;;
      ised <- min_index chi2 ;;
      ab <- oget amp bfit ;; as_ <- oget amp ised ;; Ok (ised, ab, as_)) noise ;;
  Ok (Tres bfit chi2 amp
        (map (fun p => map (fun x => option_map (fun a => (x * a)%Q) (snd p)) (fst p)) (combine tpl amp))
        (map (fun s => fst (fst s)) sims) (map (fun s => snd (fst s)) sims) (map snd sims)).
