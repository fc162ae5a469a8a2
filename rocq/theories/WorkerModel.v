(* The background worker.  Source: include/vif/utility/bits/thread-worker.hpp 7-49.

   Two threads are interleaved: the owner, which calls push and wait, and the thread that
   runs consume_loop_.  The job queue is an atomic FIFO list: its operations take effect at
   one instant (C36_linearizable).  One step makes one access to shared state.  A job is
   opaque; it begins (EStart) and ends (EEnd).  Not modelled: jobs that throw (the program
   terminates) or that use the worker themselves, failure to create a thread. *)
From Verif Require Import Base.

Section Worker.
Context {J : Type}.

(* the thread running consume_loop_, 12-21 *)
Inductive wpc :=
| WNone                (* thread_ is null *)
| WTop                 (* 13: load stop_on_empty_ *)
| WTop2                (* 13: it was true; jobs_.empty() *)
| WPop                 (* 15: jobs_.pop(job) *)
| WRun (j : J)         (* 16: job() *)
| WSleep               (* 19 *)
| WDone.               (* the function has returned *)
(* the owner *)
Inductive mop := MPush (j : J) | MWait.
Inductive mpc :=
| MIdle
| MPushing (j : J)     (* 38 *)
| MJoin                (* 44 *)
| MReset.              (* 46 *)
Inductive event := EPushed (j : J) | EStart (j : J) | EEnd (j : J) | EWaited.

Record state := State {
  queue : list J; stop : bool; worker : wpc; owner : mpc; prog : list mop; log : list event }.
Definition init (p : list mop) : state := State [] false WNone MIdle p [].

(* one step of the owner; None: it has nothing to do or is blocked in join *)
Definition mstep (s : state) : option state :=
  let '(State q b w m p lg) := s in
  match m with
  | MIdle =>
      match p with
      | [] => None
      | MPush j :: p =>   (* 32-36 *)
          Some (State q b (match w with WNone => WTop | _ => w end) (MPushing j) p lg)
      | MWait :: p =>     (* 42-43 *)
          match w with
          | WNone => Some (State q b w MIdle p (lg ++ [EWaited]))
          | _ => Some (State q true w MJoin p lg)
          end
      end
  | MPushing j => Some (State (q ++ [j]) b w MIdle p (lg ++ [EPushed j]))
  | MJoin => match w with WDone => Some (State q b WNone MReset p lg) | _ => None end
  | MReset => Some (State q false w MIdle p (lg ++ [EWaited]))
  end.
(* one step of the worker thread *)
Definition wstep (s : state) : option state :=
  let '(State q b w m p lg) := s in
  match w with
  | WNone | WDone => None
  | WTop => Some (State q b (if b then WTop2 else WPop) m p lg)
  | WTop2 => Some (State q b (match q with [] => WDone | _ => WPop end) m p lg)
  | WPop => match q with
            | [] => Some (State q b WSleep m p lg)
            | j :: q => Some (State q b (WRun j) m p (lg ++ [EStart j]))
            end
  | WRun j => Some (State q b WPop m p (lg ++ [EEnd j]))
  | WSleep => Some (State q b WTop m p lg)
  end.
Inductive turn := M | W.
Definition step (s : state) (t : turn) : state :=
  match (match t with M => mstep s | W => wstep s end) with Some s => s | None => s end.
Definition run (sched : list turn) (s : state) : state := fold_left step sched s.
End Worker.
Arguments state : clear implicits.
Arguments event : clear implicits.
Arguments mop : clear implicits.
