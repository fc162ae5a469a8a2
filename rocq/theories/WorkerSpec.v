(* What a history of the worker must look like. *)
From Verif Require Import Base WorkerModel.
Section Spec.
Context {J : Type}.
Definition pushes (l : list (event J)) : list J := flat_map (fun e => match e with EPushed j => [j] | _ => [] end) l.
Definition starts (l : list (event J)) : list J := flat_map (fun e => match e with EStart j => [j] | _ => [] end) l.
Definition ends (l : list (event J)) : list J := flat_map (fun e => match e with EEnd j => [j] | _ => [] end) l.
(* the calls of the owner that have returned *)
Definition returned (l : list (event J)) : list (mop J) :=
  flat_map (fun e => match e with EPushed j => [MPush j] | EWaited => [MWait] | _ => [] end) l.
(* the call in progress *)
Definition calling (m : @mpc J) : list (mop J) :=
  match m with MIdle => [] | MPushing j => [MPush j] | MJoin | MReset => [MWait] end.
(* jobs run one at a time, in the order of the pushes, each at most once *)
Definition in_order (l : list (event J)) : Prop :=
  (exists rest, pushes l = starts l ++ rest) /\
  (starts l = ends l \/ exists j, starts l = ends l ++ [j]).
End Spec.
(* the number of turns given to the worker thread *)
Definition wturns (sched : list turn) : nat := length (filter (fun t => match t with W => true | M => false end) sched).
