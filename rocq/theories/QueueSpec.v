(* What a history of queue operations must look like. *)
From Verif Require Import Base QueueModel.

Section Spec.
Context {T : Type}.
(* [accepted es q m]: the history es is one of a first-in first-out queue that ends with the
   contents q; m is the number of elements at the last ESizeRead *)
Inductive accepted : list (event T) -> list T -> nat -> Prop :=
| acc_nil : accepted [] [] 0
| acc_push : forall es q m v, accepted es q m -> accepted (es ++ [EPush v]) (q ++ [v]) m
| acc_pop : forall es q m v, accepted es (v :: q) m -> accepted (es ++ [EPop (Some v)]) q m
| acc_fail : forall es m, accepted es [] m -> accepted (es ++ [EPopFail]) [] m
| acc_read : forall es q m, accepted es q m -> accepted (es ++ [ESizeRead]) q (length q)
| acc_size : forall es q m, accepted es q m -> m <= length q -> accepted (es ++ [ESize m]) q m
| acc_empty : forall es q m b, accepted es q m -> (b = true <-> q = []) -> accepted (es ++ [EEmpty b]) q m.

Definition pushed (es : list (event T)) : list T :=
  flat_map (fun e => match e with EPush v => [v] | _ => [] end) es.
Definition popped (es : list (event T)) : list (option T) :=
  flat_map (fun e => match e with EPop v => [v] | _ => [] end) es.

(* two accesses conflict when they touch the same field of the same node and one writes *)
Definition overlap (f g : field) : Prop := f = g \/ f = FAll \/ g = FAll.
Definition conflict (x y : nat * field * bool) : Prop :=
  let '(a, f, w) := x in let '(b, g, v) := y in a = b /\ overlap f g /\ (w = true \/ v = true).
Definition live (h : heap T) (a : nat) : Prop := h a <> None.
End Spec.

Section Spec2.
Context {T : Type}.
(* the completed calls of the consumer, in order *)
Definition completed (es : list (event T)) : list cop :=
  flat_map (fun e => match e with
                     | EPop _ | EPopFail => [Pop] | ESize _ => [Size] | EEmpty _ => [Empty]
                     | EPush _ | ESizeRead => [] end) es.
(* the call in progress *)
Definition inflight (c : @cpc T) : list cop :=
  match c with
  | CIdle => [] | CPop1 _ | CPop2 _ | CPop3 _ | CPop4 _ | CPop5 _ _ => [Pop]
  | CSize1 _ | CSize2 _ _ _ => [Size] | CEmpty _ => [Empty]
  end.
(* the number of turns of a schedule in which the chosen thread does something *)
Fixpoint busy (sched : list turn) (s : state T) : nat :=
  match sched with
  | [] => 0
  | t :: sched =>
      match (match t with P a => pstep a s | C => cstep s end) with
      | Ok (Some s') => S (busy sched s')
      | _ => busy sched s
      end
  end.
(* the same queue with an empty history *)
Definition forget (s : state T) : state T :=
  State (hp s) (first s) (dummy s) (last s) (prod s) (cons s) (pjobs s) (cjobs s) [].
End Spec2.
