(* Independent vocabulary for integration: areas under the piecewise linear (or piecewise
   constant) function through the nodes. *)
From Coq Require Import QArith Qminmax.
From Verif Require Import Base.
Local Open Scope nat_scope.

(* consecutive nodes *)
Definition segments (l : list (Q * Q)) : list ((Q * Q) * (Q * Q)) := combine l (tl l).
Definition sum_with {A} (f : A -> Q) (l : list A) : Q := fold_right (fun a s => (f a + s)%Q) 0%Q l.

(* area of one trapezoid, and of all *)
Definition trap (s : (Q * Q) * (Q * Q)) : Q :=
  let '((xa, ya), (xb, yb)) := s in ((ya + yb) / 2 * (xb - xa))%Q.
Definition trap_sum (x y : list Q) : Q := sum_with trap (segments (combine x y)).

(* value at t of the line through both nodes *)
Definition line (xa ya xb yb t : Q) : Q := (ya + (yb - ya) / (xb - xa) * (t - xa))%Q.
(* area below one segment between the abscissae x0 and x1 *)
Definition clip (x0 x1 : Q) (s : (Q * Q) * (Q * Q)) : Q :=
  let '((xa, ya), (xb, yb)) := s in
  let l := Qmax x0 xa in let r := Qmin x1 xb in
  if Qlt_le_dec l r then ((line xa ya xb yb l + line xa ya xb yb r) / 2 * (r - l))%Q else 0%Q.
Definition area (x y : list Q) (x0 x1 : Q) : Q := sum_with (clip x0 x1) (segments (combine x y)).

(* piecewise constant: bins are (lower, upper), value *)
Definition bin_area (b : (Q * Q) * Q) : Q := (snd b * (snd (fst b) - fst (fst b)))%Q.
Definition bin_clip (x0 x1 : Q) (b : (Q * Q) * Q) : Q :=
  let l := Qmax x0 (fst (fst b)) in let r := Qmin x1 (snd (fst b)) in
  if Qlt_le_dec l r then (snd b * (r - l))%Q else 0%Q.
Definition bins_of (lo hi y : list Q) : list ((Q * Q) * Q) := combine (combine lo hi) y.

(* a usable hint for integrate_hinted: none, or a node at or before t *)
Definition hint_ok (x : list Q) (h : option nat) (t : Q) : Prop :=
  match h with None => True | Some k => exists a, nth_error x k = Some a /\ (a <= t)%Q end.
