(* Unit tests: include/vif/test/unit_test.hpp 9-76.  A number of floating point is rational, infinite or NaN; the result
   of a difference is rounded by rnd.  Both operands have the same type. *)
From Coq Require Import QArith Qabs.
From Verif Require Import Base.
Local Open Scope nat_scope.

Inductive fl : Type := Fin (q : Q) | Inf (neg : bool) | Nan.
Definition is_nan (x : fl) : bool := match x with Nan => true | _ => false end.
Definition fabs (x : fl) : fl := match x with Fin q => Fin (Qabs q) | Inf _ => Inf false | Nan => Nan end.
Definition fle (x : fl) (q : Q) : bool := match x with Fin p => Qle_bool p q | Inf neg => neg | Nan => false end.
(* std::numeric_limits<float>::epsilon() *)
Definition epsilon : Q := 1 # 2 ^ 23.

Section Rounding.
Variable rnd : Q -> Q.
Definition fsub (x y : fl) : fl :=
  match x, y with
  | Fin a, Fin b => Fin (rnd (a - b)%Q)
  | Fin _, Inf n => Inf (negb n)
  | Inf n, Fin _ => Inf n
  | Inf a, Inf b => if Bool.eqb a b then Nan else Inf a
  | _, _ => Nan
  end.
(* 51-55 *)
Definition same_float (x y : fl) : bool := (fle (fabs (fsub x y)) epsilon || (is_nan x && is_nan y) || is_nan (fsub x y))%bool.
End Rounding.
(* 46-49 *)
Definition same_exact (x y : Z) : bool := (x =? y)%Z.

(* a value: alone or in a vector *)
Inductive arg (A : Type) := One (x : A) | Vec (dims : list nat) (v : list A).
Arguments One {A}. Arguments Vec {A}.
Inductive res := RB (b : bool) | RV (l : list bool).
Definition dims_eq (a b : list nat) : bool := if list_eq_dec Nat.eq_dec a b then true else false.
(* 58-61: the operators of vectors work element by element and check the dimensions *)
Definition is_same {A} (same : A -> A -> bool) (x y : arg A) : outcome res :=
  match x, y with
  | One a, One b => Ok (RB (same a b))
  | One a, Vec _ v => Ok (RV (map (same a) v))
  | Vec _ v, One b => Ok (RV (map (fun a => same a b) v))
  | Vec d v, Vec e w => _ <- check (dims_eq d e) ;; Ok (RV (map (fun ab => same (fst ab) (snd ab)) (combine v w)))
  end.
(* 13-24 *)
Definition reduce_and (r : res) : bool := match r with RB b => b | RV l => fold_left andb l true end.
(* 9-11, 65-76: the counters (tested, failed) *)
Definition check_one {A} (same : A -> A -> bool) (st : N * N) (p : arg A * arg A) : outcome (N * N) :=
  r <- is_same same (fst p) (snd p) ;;
  let '(tested, failed) := st in
  let failed := if negb (reduce_and r) then ((failed + 1) mod 2 ^ 64)%N else failed in
  Ok (((tested + 1) mod 2 ^ 64)%N, failed).
Definition run {A} (same : A -> A -> bool) (ps : list (arg A * arg A)) : outcome (N * N) := ofold (check_one same) ps (0%N, 0%N).
