(* Random integers and coins: include/vif/math/random.hpp 58-64 (the version of randomi for vectors) and
   105-135 (random_coin).  The random numbers are given; a number of double precision is a rational
   and the result of each operation is rounded by rnd. *)
From Coq Require Import QArith Qround.
From Verif Require Import Base.
Local Open Scope nat_scope.

(* integer types: the smallest and the largest value, and whether a value out of range wraps around *)
Record itype := { imin : Z; imax : Z; wraps : bool }.
Definition int32 : itype := {| imin := - 2 ^ 31; imax := 2 ^ 31 - 1; wraps := false |}.
Definition int64 : itype := {| imin := - two63; imax := two63 - 1; wraps := false |}.
Definition uint64 : itype := {| imin := 0; imax := two64 - 1; wraps := true |}.
Definition fits (t : itype) (z : Z) : bool := ((imin t <=? z) && (z <=? imax t))%Z%bool.
Definition arith (t : itype) (z : Z) : outcome Z :=
  if fits t z then Ok z else if wraps t then Ok (z mod (imax t + 1))%Z else UB.
(* conversion of a double: towards zero, undefined out of range *)
Definition trunc (q : Q) : Z := Z.quot (Qnum q) (Zpos (Qden q)).
Definition to_int (t : itype) (q : Q) : outcome Z := if fits t (trunc q) then Ok (trunc q) else UB.

Section Rounding.
Variable rnd : Q -> Q.
(* 63: v*(ma + 1 - mi) + mi *)
Definition randomi_one (t : itype) (mi n : Z) (u : Q) : outcome Z :=
  to_int t (rnd (rnd (u * rnd (inject_Z n)) + rnd (inject_Z mi)))%Q.
Definition randomi (t : itype) (mi ma : Z) (us : list Q) : outcome (list Z) :=
  a <- arith t (ma + 1) ;; n <- arith t (a - mi) ;; omapl (randomi_one t mi n) us.
End Rounding.

Definition coin (u p : Q) : bool := Qle_bool u p.
(* 107-108, 128-132 *)
Definition random_coin (p : Q) (us : list Q) : list bool := map (fun u => coin u p) us.
(* 112-122: the random numbers have as many elements as prob *)
Definition random_coin_each (ps us : list Q) : list bool := map (fun up => coin (fst up) (snd up)) (combine us ps).
