(* Independent vocabulary for durations. *)
From Coq Require Import Ascii String QArith.
From Verif Require Import Base NumSpec.
Local Open Scope Z_scope.

(* a field: a number, and the letters of its unit *)
Definition field : Type := Z * list ascii.
Definition plain_field (f : field) (txt : list ascii) : Prop := exists d, writes d (fst f) /\ shortest d /\ txt = d ++ snd f.
Definition wide_field (w : nat) (f : field) (txt : list ascii) : Prop :=
  exists d, writes d (fst f) /\ List.length d = w /\ txt = d ++ snd f.
(* the first field is written without useless zeros, the others with w digits *)
Inductive fields_text (w : nat) : list field -> list ascii -> Prop :=
| fields_intro : forall f fs a ts, plain_field f a -> Forall2 (wide_field w) fs ts -> fields_text w (f :: fs) (a ++ concat ts).
(* only the fields that are not zero *)
Definition present (fs : list field) : list field := filter (fun f => negb (fst f =? 0)) fs.
(* from the first field that is not zero *)
Fixpoint from_first (fs : list field) : list field :=
  match fs with [] => [] | f :: r => if fst f =? 0 then from_first r else fs end.
