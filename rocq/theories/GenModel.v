(* Generators and clamping.  Source: include/vif/math/base.hpp 86-97, 199-263.
   Arguments are double (exact rationals), 64-bit signed or 64-bit unsigned integers; narrower
   integers and NaN are not modelled. *)
From Coq Require Import QArith Qround.
From Verif Require Import Base.
Local Open Scope nat_scope.

Inductive scalar := SF (q : Q) | SI (z : Z) | SU (z : Z).
Inductive kind := KF | KI | KU.
Definition kind_of (a : scalar) : kind := match a with SF _ => KF | SI _ => KI | SU _ => KU end.
(* usual arithmetic conversions *)
Definition common (a b : kind) : kind :=
  match a, b with KF, _ | _, KF => KF | KU, _ | _, KU => KU | KI, KI => KI end.
Definition conv (c : kind) (a : scalar) : outcome scalar :=
  match c, a with
  | KF, SF q => Ok (SF q)
  | KF, (SI z | SU z) => Ok (SF (inject_Z z))
  | KI, SI z => Ok (SI z)
  | KI, SU z => Ok (SI (to_signed64 z))
  | KU, (SI z | SU z) => Ok (SU (wrap64 z))
  (* from floating point: truncation, undefined out of range *)
  | KI, SF q => let z := if Qle_bool 0 q then Qfloor q else Qceiling q in z <- signed64 z ;; Ok (SI z)
  | KU, SF q => let z := if Qle_bool 0 q then Qfloor q else Qceiling q in
                if ((0 <=? z) && (z <? two64))%Z%bool then Ok (SU z) else UB
  end.
Definition to_double (a : scalar) : Q := match a with SF q => q | SI z | SU z => inject_Z z end.

(* a < b and a - b after the usual arithmetic conversions *)
Definition s_lt (a b : scalar) : outcome bool :=
  let c := common (kind_of a) (kind_of b) in
  a <- conv c a ;; b <- conv c b ;;
  Ok (negb (Qle_bool (to_double b) (to_double a))).
Definition s_sub (a b : scalar) : outcome scalar :=
  let c := common (kind_of a) (kind_of b) in
  a <- conv c a ;; b <- conv c b ;;
  match a, b with
  | SF p, SF q => Ok (SF (p - q)%Q)
  | SI p, SI q => z <- signed64 (p - q)%Z ;; Ok (SI z)
  | SU p, SU q => Ok (SU (wrap64 (p - q)))
  | _, _ => UB
  end.

(* base.hpp 86-92: the conditional operators have the common type, converted to T on return *)
Definition clamp (t mi ma : scalar) : outcome scalar :=
  let inner := common (kind_of ma) (kind_of t) in
  let outer := common (kind_of mi) inner in
  b <- s_lt t mi ;;
  if b then m <- conv outer mi ;; conv (kind_of t) m
  else
    b <- s_lt ma t ;;
    m <- conv inner (if b then ma else t) ;; m <- conv outer m ;; conv (kind_of t) m.

(* base.hpp 94-97 *)
Definition sign (t : scalar) : Z := (2 * (if Qle_bool 0 (to_double t) then 1 else 0) - 1)%Z.

(* base.hpp 199-212 *)
Definition rgen (i j : scalar) (n : nat) : outcome (list Q) :=
  if n =? 1 then Ok [to_double i]
  else
    d <- s_sub j i ;;
    let dx := (to_double d / inject_Z (wrap64 (Z.of_nat n - 1)))%Q in
    ofold (fun v k => oset v k (to_double i + inject_Z (Z.of_nat k) * dx)%Q) (seq 0 n) (repeat 0%Q n).

(* std::round *)
Definition qround (q : Q) : Z := if Qle_bool 0 q then Qfloor (q + (1#2)) else Qceiling (q - (1#2)).

(* base.hpp 248 and 250: (a - b)/s in the type ctype, for b <= a *)
Definition step_quot (a b s : scalar) : outcome Q :=
  match a, b, s with
  | SF a, SF b, SF s => Ok ((a - b) / s)%Q
  | SI a, SI b, SI s => d <- signed64 (a - b)%Z ;; Ok (inject_Z (Z.quot d s))
  | SU a, SU b, SU s => Ok (inject_Z (wrap64 (a - b) / s)%Z)
  | _, _, _ => UB
  end.

(* base.hpp 233-263; ret = indgen<double>(n)*step + i is written as a map *)
Definition rgen_step (i j s : scalar) : outcome (list Q) :=
  _ <- check (negb (Qle_bool (to_double s) 0)) ;;
  let c := common (common (kind_of i) (kind_of j)) (kind_of s) in
  ci <- conv c i ;; cj <- conv c j ;; cs <- conv c s ;;
  let up := negb (Qle_bool (to_double cj) (to_double ci)) in
  q <- (if up then step_quot cj ci cs else step_quot ci cj cs) ;;
  let n := (qround q + 1)%Z in
  if (two64 <=? n)%Z then UB
  else
    let n := Z.to_nat n in
    let step := if up then to_double s else (to_double s * (-1))%Q in
    let ret := map (fun k => inject_Z (Z.of_nat k) * step + to_double i)%Q (seq 0 n) in
    if 1 <? n then oset ret (n - 1) (to_double j)
    else
      d <- s_sub i j ;;
      if Qeq_bool (to_double d) 0 then Ok ret else Ok (ret ++ [to_double j]).
