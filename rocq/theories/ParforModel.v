(* parallel_for.  Source: include/vif/utility/bits/thread-parallel-for.hpp 8-146.

   Each worker thread repeats: ask for a chunk (under a mutex, hence one step), then call f
   for each index of the chunk (one step per call).  The calls are logged in the order in
   which they happen.  iter, the number of calls made, is the length of the log.  Not
   modelled: progress bars, functions that throw. *)
From Verif Require Import Base IndexModel.
Local Open Scope Z_scope.

Inductive wpc := WAsk | WLoop (todo : list Z) | WDone.
(* n, di are set by execute; i0, i1 are guarded by the mutex *)
Record state := State { n : Z; di : Z; i0 : Z; i1 : Z; ws : list wpc; log : list (nat * Z) }.

(* 55-72: the chunk (oi0, oi1) and the new i0, i1; None when the work is over *)
Definition query_chunk (s : state) : option (Z * Z * Z * Z) :=
  if i0 s =? n s then None
  else let i1' := wrap64 (i1 s + di s) in
       Some (i0 s, i1 s, i1 s, if n s <? i1' then n s else i1').
(* 30-38 *)
Definition wstep (w : nat) (s : state) : outcome (option state) :=
  match nth_error (ws s) w with
  | None | Some WDone => Ok None
  | Some WAsk =>
      match query_chunk s with
      | None => Ok (Some (State (n s) (di s) (i0 s) (i1 s) (upd (ws s) w WDone) (log s)))
      | Some (a, b, i0', i1') =>
          l <- for_range a b ;;
          Ok (Some (State (n s) (di s) i0' i1' (upd (ws s) w (WLoop l)) (log s)))
      end
  | Some (WLoop []) => Ok (Some (State (n s) (di s) (i0 s) (i1 s) (upd (ws s) w WAsk) (log s)))
  | Some (WLoop (i :: l)) =>
      Ok (Some (State (n s) (di s) (i0 s) (i1 s) (upd (ws s) w (WLoop l)) (log s ++ [(w, i)])))
  end.
(* 101-109: the state when the threads are launched; nworkers > 0 *)
Definition chunks (nworkers : nat) (chunk_size : Z) (n : Z) : Z :=
  if chunk_size =? 0 then Z.of_nat nworkers else Z.max (Z.of_nat nworkers) (n / chunk_size).
Definition setup (nworkers : nat) (chunk_size ifirst ilast : Z) : state :=
  let n := wrap64 (ilast - ifirst) in
  let di := wrap64 (n / chunks nworkers chunk_size n + 1) in
  State n di ifirst (wrap64 (ifirst + di)) (repeat WAsk nworkers) [].
Definition step (s : state) (w : nat) : outcome state :=
  r <- wstep w s ;; Ok (match r with Some s => s | None => s end).
Definition run (sched : list nat) (s : state) : outcome state := ofold step sched s.
(* 129-131: the threads are joined *)
Definition joined (s : state) : bool := forallb (fun w => match w with WDone => true | _ => false end) (ws s).
(* 90-99: without workers, the calls in order *)
Definition execute_serial (ifirst ilast : Z) : outcome (list Z) := for_range ifirst ilast.
