(* Angular correlation: include/vif/astro/astro.hpp 664-701 (angcorrel), on the model of histogram()
   (HistModel.v).  angdist(ra, dec, ra0, dec0) is a parameter, from one source of the catalogue and
   the position given to a rational number or NaN.  Counts are exact, and the arithmetic is rational; a
   number that is not finite is None. *)
From Coq Require Import QArith.
From Verif Require Import Base HistModel.
Local Open Scope nat_scope.

Section Ang.
Context {C : Type}.
Variable part : nat -> (option Q -> bool) -> list (option Q) -> list (option Q) * list (option Q).
Variable angdist : C * C -> C * C -> option Q.

(* a += b for vec: sizes are checked *)
Definition vadd (a b : list nat) : outcome (list nat) :=
  _ <- check (length a =? length b) ;; Ok (map (fun p => fst p + snd p) (combine a b)).
(* 683-684, 686-687, 691-692: separations between the sources of a catalogue and one position, counted *)
Definition add_counts (d0 : nat) (bins : list (Q * Q)) (cat : list (C * C)) (acc : list nat) (p : C * C) : outcome (list nat) :=
  h <- histogram part d0 (fun t => t) (map (fun q => angdist q p) cat) bins ;; vadd acc h.
Definition qn (n : nat) : Q := inject_Z (Z.of_nat n).
Definition qdiv (a b : option Q) : option Q :=
  match a, b with Some a, Some b => if Qeq_bool b 0 then None else Some (a / b)%Q | _, _ => None end.
(* 695-696 *)
Definition norm1 (n nr : nat) : option Q := qdiv (Some (qn nr)) (Some (qn n)).
Definition norm2 (n nr : nat) : option Q :=
  match norm1 n nr, qdiv (Some (qn nr - 1)%Q) (Some (qn n - 1)%Q) with Some a, Some b => Some (a * b)%Q | _, _ => None end.
(* 697, for one bin *)
Definition estimate (n nr : nat) (dd dr rr : nat) : option Q :=
  match norm1 n nr, norm2 n nr with
  | Some n1, Some n2 => qdiv (Some ((qn dd * n2 - qn dr * n1) + (qn rr - qn dr * n1))%Q) (Some (qn rr))
  | _, _ => None
  end.
(* 669-698; d0 is bins.dims[0], bins are the columns *)
Definition angcorrel (dra ddec drra drdec : list nat) (ra dec rra rdec : list C) (d0 : nat) (bins : list (Q * Q)) : outcome (list (option Q)) :=
  _ <- check (if list_eq_dec Nat.eq_dec dra ddec then true else false) ;;
  _ <- check (if list_eq_dec Nat.eq_dec drra drdec then true else false) ;;
  let src := combine ra dec in let rnd := combine rra rdec in
  let zero := repeat 0 (length bins) in
  ' (dd, dr) <- ofold (fun '(dd, dr) p => a <- add_counts d0 bins src dd p ;; b <- add_counts d0 bins rnd dr p ;; Ok (a, b)) src (zero, zero) ;;
  rr <- ofold (fun rr p => add_counts d0 bins rnd rr p) rnd zero ;;
  Ok (map (fun '(a, (b, c)) => estimate (length ra) (length rra) a b c) (combine dd (combine dr rr))).
End Ang.
