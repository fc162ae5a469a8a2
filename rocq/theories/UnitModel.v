(* Conversions of photometric units.  Source: include/vif/astro/astro.hpp 429-512.  Numbers are
   exact rationals and [None] is a division by zero; the double dpi, the decimal logarithm (None
   for what is not positive) and the powers of ten are parameters. *)
From Coq Require Import QArith.
From Verif Require Import Base InterpModel.
Local Open Scope Q_scope.

Definition bind {A B} (x : option A) (f : A -> option B) : option B := match x with Some a => f a | None => None end.
(* the constants, all written as in the source *)
Definition Mpc : Q := 30856 * 10 ^ 18.
Definition Lsol : Q := 3839 * 10 ^ 23.
Definition uJy : Q := 10 ^ 32.
Definition light : Q := 29979 * 10 ^ 10.
(* 431-442 *)
Definition lsun2uJy (dpi z d lam lum : Q) : option Q :=
  bind (qdiv (uJy * Lsol) (light * 4 * dpi * Mpc * Mpc)) (fun factor => qdiv (factor * (1 + z) * lam * lum) (d * d)).
(* 446-457 *)
Definition uJy2lsun (dpi z d lam flx : Q) : option Q :=
  bind (qdiv (light * 4 * dpi * Mpc * Mpc) (uJy * Lsol)) (fun factor => qdiv (factor * flx * d * d) lam).
(* the factor of lsun2mag and mag2lsun: 10 parsec *)
Definition factor10 (dpi : Q) : option Q := qdiv (uJy * Lsol) (light * 4 * dpi * Mpc * Mpc * (1 # 100000) * (1 # 100000)).
(* 461-470 *)
Definition lsun2mag (log10 : Q -> option Q) (dpi lam lum zp : Q) : option Q :=
  bind (factor10 dpi) (fun factor => bind (log10 (factor * lam * lum)) (fun l => Some (-(5 # 2) * l + zp))).
(* 474-483 *)
Definition mag2lsun (e10 : Q -> Q) (dpi lam mag zp : Q) : option Q :=
  bind (factor10 dpi) (fun factor => bind (qdiv (e10 ((2 # 5) * (zp - mag))) factor) (fun v => qdiv v lam)).
(* 486-495 *)
Definition uJy2mag (log10 : Q -> option Q) (x zp : Q) : option Q := bind (log10 x) (fun l => Some (-(5 # 2) * l + zp)).
Definition mag2uJy (e10 : Q -> Q) (x zp : Q) : Q := e10 ((2 # 5) * (zp - x)).
(* 498-506 *)
Definition uJy2cgs (lam flx : Q) : option Q :=
  let toerg := / 10 ^ 29 in let c := 29979 * 10 ^ 4 in let tometer := / 10 ^ 6 in let toangstrom := 10 ^ 10 in
  bind (qdiv (toerg * c) (tometer * tometer)) (fun f => bind (qdiv f toangstrom) (fun factor =>
    bind (qdiv (factor * flx) lam) (fun v => qdiv v lam))).
(* 509-516 *)
Definition cgs2uJy (lam flx : Q) : option Q :=
  let toerg := / 10 ^ 29 in let c := 29979 * 10 ^ 4 in let tometer := / 10 ^ 10 in
  bind (qdiv tometer (toerg * c)) (fun factor => Some (factor * flx * lam * lam)).
