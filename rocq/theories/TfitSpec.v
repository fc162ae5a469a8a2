(* What fitting a template means. *)
From Coq Require Import QArith.
From Verif Require Import Base.

(* the sum of ((measure - model)/error)^2 *)
Fixpoint misfit (y m e : list Q) : Q :=
  match y, m, e with
  | y1 :: y, m1 :: m, e1 :: e => ((y1 - m1) / e1) * ((y1 - m1) / e1) + misfit y m e
  | _, _, _ => 0
  end%Q.
Definition scaled (a : Q) (t : list Q) : list Q := map (fun x => a * x)%Q t.
(* a is the best amplitude of template t *)
Definition best_amp (y e t : list Q) (a : Q) : Prop := forall b, (misfit y (scaled a t) e <= misfit y (scaled b t) e)%Q.
Definition zero_template (t : list Q) : Prop := forall x, In x t -> (x == 0)%Q.
(* as many values as bands, and errors that are not 0 *)
Definition fit_input (tpl : list (list Q)) (y e : list Q) : Prop :=
  tpl <> [] /\ length y = length e /\ (forall t, In t tpl -> length t = length e) /\ (forall x, In x e -> ~ (x == 0)%Q).
(* i is the first index of the smallest number of l; None is not a number *)
Definition first_min (l : list (option Q)) (i : nat) : Prop :=
  exists c, nth_error l i = Some (Some c) /\
    (forall j d, nth_error l j = Some (Some d) -> (c <= d)%Q /\ ((j < i)%nat -> (c < d)%Q)).
(* amplitude a and chi2 c of template t *)
Definition one_fit (renorm : bool) (y e t : list Q) (a c : option Q) : Prop :=
  (zero_template t /\ a = None /\ (if renorm then c = None else exists x, c = Some x /\ (x == misfit y t e)%Q)) \/
  (exists a' x, ~ zero_template t /\ a = Some a' /\ c = Some x /\ best_amp y e t a' /\
     (x == misfit y (if renorm then scaled a' t else t) e)%Q).
(* the fluxes of a realization with random numbers n *)
Definition perturbed (y n e : list Q) : list Q := map (fun p => fst p + fst (snd p) * snd (snd p))%Q (combine y (combine n e)).
