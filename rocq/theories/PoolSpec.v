(* What a history of the pool must look like. *)
From Verif Require Import Base PoolModel.
Section Spec.
Context {T : Type}.
Implicit Type l : list (event T).
(* the history since the last start *)
Definition gen l : list (event T) :=
  fold_left (fun acc e => match e with EStarted _ => [] | _ => acc ++ [e] end) l [].
(* the items given to worker i, begun by it, finished by it *)
Definition given (i : nat) l : list T := flat_map (fun e => match e with EGiven _ j t => if j =? i then [t] else [] | _ => [] end) l.
Definition begun (i : nat) l : list T := flat_map (fun e => match e with EBegin j t => if j =? i then [t] else [] | _ => [] end) l.
Definition ended (i : nat) l : list T := flat_map (fun e => match e with EEnd j t => if j =? i then [t] else [] | _ => [] end) l.
(* the workers chosen by process(t), in order *)
Definition targets l : list nat := flat_map (fun e => match e with EGiven true j _ => [j] | _ => [] end) l.
(* consume_all has returned and nothing was given since *)
Definition is_given (e : event T) : bool := match e with EGiven _ _ _ => true | _ => false end.
Definition drained l : Prop := exists a b, l = a ++ EDrained :: b /\ forallb (fun e => negb (is_given e)) b = true.
(* the calls of the owner that have returned, and the one in progress *)
Definition returned l : list (op T) :=
  flat_map (fun e => match e with
                     | EStarted n => [Start n] | EGiven true _ t => [Process t] | EGiven false i t => [ProcessTo i t]
                     | EDrained => [ConsumeAll] | EJoined => [Join] | EBegin _ _ | EEnd _ _ => [] end) l.
Definition calling (o : opc) : list (op T) :=
  match o with OIdle => [] | OClear _ n => [Start n] | OScan _ => [ConsumeAll] | OSet _ | OWait _ => [Join] end.
(* programs that use the pool within its bounds, n being its number of workers *)
Fixpoint well_used (n : nat) (p : list (op T)) : Prop :=
  match p with
  | [] => True
  | Start m :: p => (Z.of_nat m < two64)%Z /\ well_used m p
  | Process _ :: p => 0 < n /\ well_used n p
  | ProcessTo i _ :: p => i < n /\ well_used n p
  | ConsumeAll :: p | Join :: p => well_used n p
  end.
End Spec.
(* the number of turns given to worker i *)
Definition wturns (i : nat) (sched : list turn) : nat :=
  length (filter (fun t => match t with TW j => j =? i | TO => false end) sched).
(* the number of turns given to the owner *)
Definition oturns (sched : list turn) : nat :=
  length (filter (fun t => match t with TO => true | TW _ => false end) sched).
(* the call in progress returns, logging e, at some point while the schedule runs *)
Definition returned_with {T} (e : event T) (s : state T) (more : list turn) : Prop :=
  exists a b s1 lg, more = a ++ b /\ run a s = Ok s1 /\ log s1 = lg ++ [e] /\ own s1 = OIdle.
