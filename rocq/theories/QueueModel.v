(* The lock-free queue for one producer and one consumer.
   Source: include/vif/utility/bits/thread-queue.hpp 12-125.

   The two threads are interleaved by steps; one step makes at most one access to a location
   that the other thread may write (a node, dummy_ or last_).  Loads by a thread of an atomic
   variable that only itself modifies are merged with the next access.  All atomic operations
   are sequentially consistent in the source; the plain accesses to nodes never race
   (C36_no_data_race), so that interleaving is an adequate memory model.

   The heap is a map from addresses to live nodes.  Any access to a dead node, and deleting
   one, is undefined behaviour.  Where the source allocates, the schedule proposes the
   address: any dead address can be reused, as with a real allocator. *)
From Verif Require Import Base.

Section Queue.
Context {T : Type}.

(* 14-21; data is None once moved from (or default constructed) *)
Record node := Node { data : option T; next : option nat }.
Definition heap := nat -> option node.
Definition hset (h : heap) (a : nat) (n : option node) : heap := fun x => if x =? a then n else h x.
Definition hget (h : heap) (a : nat) : outcome node := match h a with Some n => Ok n | None => UB end.
Definition deref (p : option nat) : outcome nat := match p with Some a => Ok a | None => UB end.

(* what each thread is about to do *)
Inductive ppc :=
| PIdle                       (* between two calls of push *)
| PLink (l x : nat)           (* 54: write last->next = x *)
| PNext                       (* 55: read last_->next *)
| PPub (x : nat)              (* 55: store last_ = x *)
| PTest                       (* 58: load dummy_, compare with first_ *)
| PRead (t : nat)             (* 60: read temp->next, store first_ (private) *)
| PDel (t : nat).             (* 61: delete temp *)
Inductive cop := Pop | Size | Empty.
Inductive cpc :=
| CIdle                       (* between two calls *)
| CPop1 (d : nat)             (* 70: load last_, compare with dummy_ = d *)
| CPop2 (d : nat)             (* 72: read d->next *)
| CPop3 (n : nat)             (* 72: move n->data *)
| CPop4 (v : option T)        (* 73: read dummy_->next *)
| CPop5 (v : option T) (n : nat)  (* 73: store dummy_ = n *)
| CSize1 (t : nat)            (* 87: load last_ *)
| CSize2 (t e : nat) (n : nat)    (* 90-93: compare, read t->next *)
| CEmpty (d : nat).           (* 102: load last_ *)

(* what happened, in the order in which it took effect *)
Inductive event :=
| EPush (v : T)               (* the store of last_ *)
| EPop (v : option T)         (* the store of dummy_ by a pop that returns true *)
| EPopFail                    (* the load of last_ by a pop that returns false *)
| ESizeRead                   (* the load of last_ by size() *)
| ESize (n : nat)             (* size() returns n *)
| EEmpty (b : bool).          (* empty() loads last_ and returns b *)

Record state := State {
  hp : heap; first : nat; dummy : nat; last : nat;
  prod : ppc; cons : cpc;
  pjobs : list T;             (* values still to be pushed; the head is being pushed *)
  cjobs : list cop;           (* calls still to be made by the consumer *)
  log : list event
}.

(* 31-34: node a0 is the dummy *)
Definition init (a0 : nat) (pushes : list T) (calls : list cop) : state :=
  State (hset (fun _ => None) a0 (Some (Node None None))) a0 a0 a0 PIdle CIdle pushes calls [].

(* one step of the producer; a is the address given by the allocator if it is free.
   None: the thread has nothing to do (or the allocator must propose another address) *)
Definition pstep (a : nat) (s : state) : outcome (option state) :=
  let '(State h f d l p c pj cj lg) := s in
  match p with
  | PIdle =>
      match pj with
      | [] => Ok None
      | v :: _ =>
          match h a with
          | Some _ => Ok None
          | None => Ok (Some (State (hset h a (Some (Node (Some v) None))) f d l (PLink l a) c pj cj lg))
          end
      end
  | PLink l' x =>
      n <- hget h l' ;; Ok (Some (State (hset h l' (Some (Node (data n) (Some x)))) f d l PNext c pj cj lg))
  | PNext =>
      n <- hget h l ;; x <- deref (next n) ;; Ok (Some (State h f d l (PPub x) c pj cj lg))
  | PPub x =>
      match pj with
      | [] => UB (* not reached *)
      | v :: pj => Ok (Some (State h f d x PTest c pj cj (lg ++ [EPush v])))
      end
  | PTest => Ok (Some (State h f d l (if f =? d then PIdle else PRead f) c pj cj lg))
  | PRead t =>
      n <- hget h t ;; f <- deref (next n) ;; Ok (Some (State h f d l (PDel t) c pj cj lg))
  | PDel t => _ <- hget h t ;; Ok (Some (State (hset h t None) f d l PTest c pj cj lg))
  end.

(* one step of the consumer *)
Definition cstep (s : state) : outcome (option state) :=
  let '(State h f d l p c pj cj lg) := s in
  match c with
  | CIdle =>
      match cj with
      | [] => Ok None
      | Pop :: cj => Ok (Some (State h f d l p (CPop1 d) pj cj lg))
      | Size :: cj => Ok (Some (State h f d l p (CSize1 d) pj cj lg))
      | Empty :: cj => Ok (Some (State h f d l p (CEmpty d) pj cj lg))
      end
  | CPop1 d' =>
      Ok (Some (if d' =? l then State h f d l p CIdle pj cj (lg ++ [EPopFail])
                else State h f d l p (CPop2 d) pj cj lg))
  | CPop2 d' => n <- hget h d' ;; x <- deref (next n) ;; Ok (Some (State h f d l p (CPop3 x) pj cj lg))
  | CPop3 x =>
      n <- hget h x ;; Ok (Some (State (hset h x (Some (Node None (next n)))) f d l p (CPop4 (data n)) pj cj lg))
  | CPop4 v => n <- hget h d ;; x <- deref (next n) ;; Ok (Some (State h f d l p (CPop5 v x) pj cj lg))
  | CPop5 v x => Ok (Some (State h f x l p CIdle pj cj (lg ++ [EPop v])))
  | CSize1 t => Ok (Some (State h f d l p (CSize2 t l 0) pj cj (lg ++ [ESizeRead])))
  | CSize2 t e n =>
      if t =? e then Ok (Some (State h f d l p CIdle pj cj (lg ++ [ESize n])))
      else nd <- hget h t ;; t <- deref (next nd) ;; Ok (Some (State h f d l p (CSize2 t e (n + 1)) pj cj lg))
  | CEmpty d' => Ok (Some (State h f d l p CIdle pj cj (lg ++ [EEmpty (d' =? l)])))
  end.

(* a schedule chooses the thread and the address for allocations *)
Inductive turn := P (a : nat) | C.
Definition step (s : state) (t : turn) : outcome state :=
  r <- match t with P a => pstep a s | C => cstep s end ;;
  Ok (match r with Some s => s | None => s end).
Definition run (sched : list turn) (s : state) : outcome state := ofold step sched s.

(* plain (non-atomic) accesses of the next step: the node, the field, and whether it writes *)
Inductive field := FNext | FData | FAll.
Definition paccess (s : state) : option (nat * field * bool) :=
  match prod s with
  | PLink l _ => Some (l, FNext, true)
  | PNext => Some (last s, FNext, false)
  | PRead t => Some (t, FNext, false)
  | PDel t => Some (t, FAll, true)
  | _ => None
  end.
Definition caccess (s : state) : option (nat * field * bool) :=
  match cons s with
  | CPop2 d => Some (d, FNext, false)
  | CPop3 n => Some (n, FData, true)
  | CPop4 _ => Some (dummy s, FNext, false)
  | CSize2 t e _ => if t =? e then None else Some (t, FNext, false)
  | _ => None
  end.

(* 36-43: the destructor; fuel bounds the number of nodes *)
Fixpoint destroy (fuel : nat) (h : heap) (f : option nat) : outcome heap :=
  match f with
  | None => Ok h
  | Some t =>
      match fuel with
      | O => Diverge
      | S fuel => n <- hget h t ;; destroy fuel (hset h t None) (next n)
      end
  end.
(* 109-113 *)
Fixpoint clear1 (fuel : nat) (h : heap) (f d : nat) : outcome heap :=
  if f =? d then Ok h
  else match fuel with
       | O => Diverge
       | S fuel => n <- hget h f ;; x <- deref (next n) ;; clear1 fuel (hset h f None) x d
       end.
(* 117-121 *)
Fixpoint clear2 (fuel : nat) (h : heap) (f : nat) : outcome (heap * nat) :=
  n <- hget h f ;;
  match next n with
  | None => Ok (h, f)
  | Some x => match fuel with O => Diverge | S fuel => clear2 fuel (hset h f None) x end
  end.
(* 108-124 *)
Definition clear (fuel : nat) (s : state) : outcome state :=
  let '(State h f d l p c pj cj lg) := s in
  h <- clear1 fuel h f d ;;
  '(h, f) <- clear2 fuel h d ;;
  Ok (State h f f f p c pj cj lg).
End Queue.
Arguments node : clear implicits.
Arguments state : clear implicits.
Arguments event : clear implicits.
Arguments heap : clear implicits.
