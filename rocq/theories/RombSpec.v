(* Independent notions for integration and clipping. *)
From Coq Require Import QArith Qabs.
From Verif Require Import Base OrderModel.
Local Open Scope nat_scope.

(* g 0 + ... + g (n-1) *)
Fixpoint sumf (n : nat) (g : nat -> Q) : Q := match n with 0 => 0%Q | S n => (sumf n g + g n)%Q end.
Definition qn (n : nat) : Q := inject_Z (Z.of_nat n).
(* the trapezium rule with n intervals between a and b *)
Definition trapezium (f : Q -> Q) (a b : Q) (n : nat) : Q :=
  let h := ((b - a) / qn n)%Q in
  (h * ((f a + f b) / 2 + sumf (n - 1) (fun k => f (a + qn (S k) * h))))%Q.
(* Romberg's table: Richardson extrapolation of the trapezium rule with 2^n intervals *)
Fixpoint romberg (f : Q -> Q) (a b : Q) (n m : nat) : Q :=
  match m with
  | 0 => trapezium f a b (2 ^ n)
  | S m' => (romberg f a b n m' + (romberg f a b n m' - romberg f a b (n - 1) m') / inject_Z (4 ^ Z.of_nat m - 1))%Q
  end.
(* the last two values of a row agree within the tolerance *)
Definition agree (f : Q -> Q) (a b e : Q) (n : nat) : Prop :=
  (Qabs (romberg f a b n n - romberg f a b n (n - 1)) <= e * Qabs (romberg f a b n n))%Q.
(* functions of numbers, whatever the fractions that represent them *)
Definition regular (f : Q -> Q) : Prop := forall x y, (x == y)%Q -> (f x == f y)%Q.

(* c0 + c1 x + c2 x^2 + ..., and its integral between a and b *)
Fixpoint poly (c : list Q) (x : Q) : Q := match c with [] => 0%Q | c0 :: t => (c0 + x * poly t x)%Q end.
Fixpoint primitive (c : list Q) (i : positive) (x : Q) : Q :=
  match c with [] => 0%Q | c0 :: t => (c0 * x ^ Zpos i / inject_Z (Zpos i) + primitive t (Pos.succ i) x)%Q end.
Definition integral (c : list Q) (a b : Q) : Q := (primitive c 1 b - primitive c 1 a)%Q.
(* 1 at 0 and 0 elsewhere *)
Definition spike (x : Q) : Q := if Qeq_bool x 0 then 1%Q else 0%Q.
(* distances to the median *)
Definition deviations (med : Z) (l : list Z) : list Z := map (fun x => Z.abs (x - med)) l.
