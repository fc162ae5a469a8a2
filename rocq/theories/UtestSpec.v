(* C125: what is expected of unit tests. *)
From Coq Require Import QArith Qabs.
From Verif Require Import Base.
Local Open Scope nat_scope.

(* the elements that are compared: pairs at the same position, a single value with every element *)
Definition pairs {A} (x y : A + list nat * list A) : list (A * A) :=
  match x, y with
  | inl a, inl b => [(a, b)]
  | inl a, inr (_, w) => map (fun b => (a, b)) w
  | inr (_, v), inl b => map (fun a => (a, b)) v
  | inr (_, v), inr (_, w) => combine v w
  end.
Definition comparable {A} (x y : A + list nat * list A) : Prop :=
  match x, y with inr (d, v), inr (e, w) => d = e /\ length v = length w | _, _ => True end.
