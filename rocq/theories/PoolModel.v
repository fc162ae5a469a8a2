(* The worker pool.  Source: include/vif/utility/bits/thread-worker-pool.hpp 8-213.

   The owner thread calls start, process, consume_all and join; each worker thread runs the
   loop of its constructor.  The input queue of a worker is an atomic FIFO list: the queue
   operations take effect at one instant (C36_linearizable; size(), which the owner calls
   here although it is meant for the consumer, reads only nodes that the owner alone may
   free).  One step makes one access to shared state.  Not modelled: the workspace value,
   remaining(), functions that throw, failure to create threads. *)
From Verif Require Import Base.

Section Pool.
Context {T : Type}.

(* a worker thread, 20-24 and 53-57 *)
Inductive wpc :=
| WTop                 (* load shutdown *)
| WPop                 (* input.pop(t) *)
| WRun (t : T)         (* f(t) *)
| WDone.
Record wk := Wk { inq : list T; shut : bool; wat : wpc; joinable : bool }.
(* constructor, 15-25, 49-58 *)
Definition fresh : wk := Wk [] false WTop true.

Inductive op := Start (n : nat) | Process (t : T) | ProcessTo (i : nat) (t : T) | ConsumeAll | Join.
(* where the owner is *)
Inductive opc :=
| OIdle
| OClear (k n : nat)   (* 103: destroying worker k, which joins it (27-35) *)
| OScan (k : nat)      (* 139-144: looking at worker k *)
| OSet (k : nat)       (* 113-115 *)
| OWait (k : nat).     (* 117-119 *)
Inductive event :=
| EStarted (n : nat)
| EGiven (auto : bool) (i : nat) (t : T)  (* auto: the worker was chosen by round robin *)
| EBegin (i : nat) (t : T) | EEnd (i : nat) (t : T)
| EDrained | EJoined.

Record state := State { ws : list wk; lastp : Z; own : opc; prog : list op; log : list event }.
(* 87-90: a default constructed pool; the other constructor calls start *)
Definition init (p : list op) : state := State [] 0 OIdle p [].

(* workers[i]->input.push(t) *)
Definition give (auto : bool) (w : list wk) (i : nat) (t : T) (l : Z) (p : list op) (lg : list event) : outcome state :=
  x <- oget w i ;;
  w <- oset w i (Wk (inq x ++ [t]) (shut x) (wat x) (joinable x)) ;;
  Ok (State w l OIdle p (lg ++ [EGiven auto i t])).
(* one step of the owner; None: nothing to do, or blocked in std::thread::join *)
Definition ostep (s : state) : outcome (option state) :=
  let '(State w l o p lg) := s in
  match o with
  | OIdle =>
      match p with
      | [] => Ok None
      | Start n :: p => Ok (Some (State w l (OClear 0 n) p lg))
      | Process t :: p =>     (* 122-129 *)
          let l := wrap64 (l + 1) in
          let l := if (Z.of_nat (length w) <=? l)%Z then 0%Z else l in
          omap Some (give true w (Z.to_nat l) t l p lg)
      | ProcessTo i t :: p => omap Some (give false w i t l p lg)   (* 131-133 *)
      | ConsumeAll :: p => Ok (Some (State w l (OScan 0) p lg))
      | Join :: p => Ok (Some (State w l (OSet 0) p lg))
      end
  | OClear k n =>
      if k =? length w
      then (* 104-109 *) Ok (Some (State (repeat fresh n) (wrap64 (Z.of_nat n - 1)) OIdle p (lg ++ [EStarted n])))
      else x <- oget w k ;;
           if joinable x
           then match wat x with
                | WDone => w <- oset w k (Wk (inq x) (shut x) WDone false) ;; Ok (Some (State w l (OClear (k + 1) n) p lg))
                | _ => Ok None
                end
           else Ok (Some (State w l (OClear (k + 1) n) p lg))
  | OScan k =>
      if k =? length w then Ok (Some (State w l OIdle p (lg ++ [EDrained])))
      else x <- oget w k ;;
           Ok (Some (State w l (if 0 <? length (inq x) then OScan 0 else OScan (k + 1)) p lg))
  | OSet k =>
      if k =? length w then Ok (Some (State w l (OWait 0) p lg))
      else x <- oget w k ;;
           w <- oset w k (Wk (inq x) true (wat x) (joinable x)) ;;
           Ok (Some (State w l (OSet (k + 1)) p lg))
  | OWait k =>
      if k =? length w then Ok (Some (State w l OIdle p (lg ++ [EJoined])))
      else x <- oget w k ;;
           if joinable x
           then match wat x with
                | WDone => w <- oset w k (Wk (inq x) (shut x) WDone false) ;; Ok (Some (State w l (OWait (k + 1)) p lg))
                | _ => Ok None
                end
           else Ok (Some (State w l (OWait (k + 1)) p lg))
  end.

(* one step of worker i *)
Definition wstep1 (i : nat) (x : wk) : option (wk * list event) :=
  match wat x with
  | WTop => Some (Wk (inq x) (shut x) (if shut x then WDone else WPop) (joinable x), [])
  | WPop => match inq x with
            | [] => Some (Wk [] (shut x) WTop (joinable x), [])
            | t :: q => Some (Wk q (shut x) (WRun t) (joinable x), [EBegin i t])
            end
  | WRun t => Some (Wk (inq x) (shut x) WPop (joinable x), [EEnd i t])
  | WDone => None
  end.
Definition wstep (i : nat) (s : state) : option state :=
  match nth_error (ws s) i with
  | None => None
  | Some x => match wstep1 i x with
              | None => None
              | Some (y, es) => Some (State (upd (ws s) i y) (lastp s) (own s) (prog s) (log s ++ es))
              end
  end.
Inductive turn := TO | TW (i : nat).
Definition step (s : state) (t : turn) : outcome state :=
  match t with
  | TO => r <- ostep s ;; Ok (match r with Some s => s | None => s end)
  | TW i => Ok (match wstep i s with Some s => s | None => s end)
  end.
Definition run (sched : list turn) (s : state) : outcome state := ofold step sched s.
End Pool.
Arguments state : clear implicits.
Arguments event : clear implicits.
Arguments op : clear implicits.
Arguments wk : clear implicits.
