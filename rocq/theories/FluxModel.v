(* Flux of a spectrum seen through a filter.  Source: include/vif/astro/astro.hpp 1288-1384
   (sed2flux, sed_luminosity).  Numbers are exact rationals; [None] is a result that is not a
   finite number (see InterpModel.v). *)
From Coq Require Import QArith.
From Verif Require Import Base OrderModel InterpModel IntegModel.
Local Open Scope nat_scope.

(* 1288-1291 *)
Definition flux_interpolate (l r : list Q) (x : Q) (i : nat) : outcome (option Q) :=
  r0 <- oget r i ;; r1 <- oget r (i + 1) ;; l0 <- oget l i ;; l1 <- oget l (i + 1) ;;
  Ok (interp r0 r1 l0 l1 x).
Definition times (a : Q) (b : option Q) : option Q := option_map (fun b => a * b)%Q b.
(* value += 0.5*(nval + pval)*(nlam - plam) *)
Definition accumulate (value nval pval : option Q) (nlam plam : Q) : option Q :=
  match value, nval, pval with
  | Some v, Some n, Some p => Some (v + (1 # 2) * (n + p) * (nlam - plam))%Q
  | _, _, _ => None
  end.
(* 1315-1336; the position and the product at the previous node are plam and pval *)
Fixpoint flux_loop (fuel : nat) (flam fres lam sed : list Q) (ifil ised : nat) (plam : Q) (pval value : option Q)
  : outcome (option Q) :=
  match fuel with
  | O => Diverge
  | S fuel =>
      if (ifil <? length flam - 1) && (ised <? length lam - 1) then
        f1 <- oget flam (ifil + 1) ;; l1 <- oget lam (ised + 1) ;;
        if qlt f1 l1 then
          r <- oget fres (ifil + 1) ;; s <- flux_interpolate lam sed f1 ised ;;
          let nval := times r s in
          flux_loop fuel flam fres lam sed (ifil + 1) ised f1 nval (accumulate value nval pval f1 plam)
        else
          s <- oget sed (ised + 1) ;; r <- flux_interpolate flam fres l1 ifil ;;
          let nval := times s r in
          flux_loop fuel flam fres lam sed ifil (ised + 1) l1 nval (accumulate value nval pval l1 plam)
      else if ifil =? length flam - 1 then Ok value else Ok None
  end.
(* 1294-1338 *)
Definition sed2flux (flam fres lam sed : list Q) : outcome (option Q) :=
  _ <- check (length flam =? length fres) ;;
  _ <- check (length lam =? length sed) ;;
  _ <- check (0 <? length flam) ;;
  _ <- check (0 <? length lam) ;;
  f0 <- oget flam 0 ;;
  ised <- lower_bound qlt lam f0 ;;
  match ised with
  | None => Ok None
  | Some ised =>
      r0 <- oget fres 0 ;; s <- flux_interpolate lam sed f0 ised ;;
      flux_loop (length flam + length lam) flam fres lam sed 0 ised f0 (times r0 s) (Some 0%Q)
  end.
(* 1345-1356: one spectrum per line *)
Definition sed2flux_rows (flam fres : list Q) (lam sed : list (list Q)) : outcome (list (option Q)) :=
  omapl (fun s => l <- oget lam s ;; d <- oget sed s ;; sed2flux flam fres l d) (seq 0 (length sed)).

(* v[s-_-e]; (e+1)-s wraps if the range is more than empty, and so much cannot be allocated *)
Definition section {A} (v : list A) (s e : nat) : outcome (list A) :=
  _ <- check (e <? length v) ;; _ <- check (s <? length v) ;;
  if S e <? s then Throws else Ok (firstn (S e - s) (skipn s v)).
(* 1372-1380; an element of lam that is 0 makes the result infinite or NaN *)
Definition sed_luminosity (lam sed : list Q) (l0 l1 : Q) : outcome (option Q) :=
  s <- lower_bound qlt lam l0 ;; e <- upper_bound qlt lam l1 ;;
  match s, e with
  | Some s, Some e =>
      x <- section lam s e ;; y <- section sed s e ;;
      if existsb (fun l => Qeq_bool l 0) x then Ok None
      else omap Some (integrate x (map (fun p => snd p / fst p)%Q (combine x y)))
  | _, _ => Ok None
  end.
(* 1383-1386 *)
Definition lir_8_1000 (lam sed : list Q) : outcome (option Q) := sed_luminosity lam sed 8 1000.
