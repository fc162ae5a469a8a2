(* What running a loop body over a set of indices means. *)
From Verif Require Import Base ParforModel.
Local Open Scope Z_scope.
(* each of b, ..., e-1 exactly once, nothing else *)
Definition each_once (b e : Z) (l : list Z) : Prop := NoDup l /\ forall i, In i l <-> b <= i < e.
(* at most once each, nothing else *)
Definition some_once (b e : Z) (l : list Z) : Prop := NoDup l /\ forall i, In i l -> b <= i < e.
(* the turns in which a thread does something *)
Fixpoint busy (sched : list nat) (s : state) : nat :=
  match sched with
  | [] => 0
  | w :: sched => match wstep w s with Ok (Some s') => S (busy sched s') | _ => busy sched s end
  end.
