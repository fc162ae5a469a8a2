(* What the flux of a spectrum through a filter should be. *)
From Coq Require Import QArith.
From Verif Require Import Base InterpSpec IntegSpec.
Local Open Scope nat_scope.

(* the piecewise linear function through the points *)
Fixpoint pl (p : list (Q * Q)) (t : Q) : Q :=
  match p with
  | (xa, ya) :: (((xb, yb) :: _) as r) =>
      match r with
      | [_] => line xa ya xb yb t
      | _ => if Qlt_le_dec t xb then line xa ya xb yb t else pl r t
      end
  | _ => 0%Q
  end.
Definition curve (x y : list Q) : Q -> Q := pl (combine x y).
(* the trapezoid rule for a function on nodes *)
Definition rule (f : Q -> Q) (g : list Q) : Q := trap_sum g (map f g).
(* the nodes: those of the filter, and those of the spectrum within the filter *)
Definition first_last (g : list Q) (a b : Q) : Prop := nth_error g 0 = Some a /\ nth_error g (length g - 1) = Some b.
Definition nodes (flam lam g : list Q) : Prop :=
  exists a b, first_last flam a b /\ first_last g a b /\ nondecreasing g /\
    (forall x, In x flam -> In x g) /\ (forall x, In x lam -> (a < x)%Q -> (x <= b)%Q -> In x g) /\
    (forall x, In x g -> In x flam \/ (In x lam /\ (a <= x)%Q /\ (x <= b)%Q)).
