(* Minimisation of a function.  Source: include/vif/math/optimize.hpp 13-150 (minimize_bfgs).  The
   minimizer of GSL is a parameter: a state with its position and value, an iteration that succeeds,
   makes no progress, fails or throws (an exception of the user's function), and the test of the
   gradient.  NaN is None. *)
From Coq Require Import QArith.
From Verif Require Import Base.
Local Open Scope nat_scope.

(* 52-98: the value and the derivatives for GSL, from what the user's function gives (r.safe) *)
Definition value_of (r : list Q) : outcome Q := oget r 0.
Definition gradient_of (n : nat) (r : list Q) : outcome (list Q) := omapl (fun i => oget r (i + 1)) (seq 0 n).
Definition both_of (n : nat) (r : list Q) : outcome (Q * list Q) := f <- value_of r ;; g <- gradient_of n r ;; Ok (f, g).

(* 19-24 *)
Record result := Result { success : bool; params : list Q; value : option Q; niter : nat }.
Section Minimizer.
Context {S : Type}.
Variables (position : S -> list Q) (value_at : S -> Q).
Inductive step := Moved (s : S) | NoProgress (s : S) | Failed (s : S) | Thrown.
Inductive test := Small | Continue | Wrong.
Variables (iterate : S -> step) (gradient : S -> test).
(* 136-139 *)
Definition finish (ok : bool) (s : S) (n : nat) : outcome result := Ok (Result ok (position s) (Some (value_at s)) n).
(* 145-149: the result as it is *)
Definition caught (size n : nat) : outcome result := Ok (Result false (repeat 0%Q size) None n).
(* 114-133 *)
Fixpoint loop (fuel max_iter size : nat) (s : S) (n : nat) : outcome result :=
  match fuel with
  | O => Diverge
  | Datatypes.S fuel =>
      let n := n + 1 in
      match iterate s with
      | Thrown => caught size n
      | NoProgress s => finish true s n
      | Failed s => finish false s n
      | Moved s =>
          match gradient s with
          | Small => finish true s n
          | Wrong => finish false s n
          | Continue => if n <? max_iter then loop fuel max_iter size s n else finish false s n
          end
      end
  end.
(* 30-150: init is the minimizer set up at the start, None if that throws *)
Definition minimize_bfgs (init : option S) (max_iter size : nat) : outcome result :=
  match init with None => caught size 0 | Some s => loop (max_iter + 1) max_iter size s 0 end.
End Minimizer.
Arguments step : clear implicits.
