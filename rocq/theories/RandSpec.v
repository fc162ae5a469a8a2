(* What sampling by rejection should give. *)
From Coq Require Import QArith.
From Verif Require Import Base.
Local Open Scope nat_scope.

Section Spec.
Context {T : Type}.
Variable genpos : T -> outcome ((Q * Q) * T).
Variable inside : Q -> Q -> bool.
(* the positions drawn one after the other from a state of the generator, and the state after *)
Inductive drawn : T -> list (Q * Q) -> T -> Prop :=
| drawn_none s : drawn s [] s
| drawn_more s p s1 l s2 : genpos s = Ok (p, s1) -> drawn s1 l s2 -> drawn s (p :: l) s2.
Definition accepted (p : Q * Q) : Prop := inside (fst p) (snd p) = true.
Definition rejected (p : Q * Q) : Prop := inside (fst p) (snd p) = false.
(* the accepted positions, in order *)
Definition kept (l : list (Q * Q)) : list (Q * Q) := filter (fun p => inside (fst p) (snd p)) l.
(* a run of n rejected positions, from the i-th on *)
Definition run (l : list (Q * Q)) (i n : nat) : Prop :=
  forall j, j < n -> exists p, nth_error l (i + j) = Some p /\ rejected p.
End Spec.
(* the number of sources of the power law sample *)
Definition whole (counts : list nat) : nat := fold_right Nat.add 0 counts.
Definition total (l : list Q) : Q := fold_right Qplus 0%Q l.
