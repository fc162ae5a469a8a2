(* C36, C37: the lock-free queue for one producer and one consumer. *)
From Verif Require Import Base QueueModel QueueSpec QueueProofs QueueProofs2.

(* every execution of the two threads has the history of a FIFO queue: pops return the head
   of the queue at the moment they take effect and fail exactly when it is empty, empty()
   answers correctly, size() returns the number of elements when last_ was read, which is
   never more than what is present at return; every push and every call occurs once, in
   program order *)
Theorem C36_linearizable : forall (T : Type) sched a0 (pushes : list T) calls,
  exists st q m, run sched (init a0 pushes calls) = Ok st /\ accepted (log st) q m /\
    pushed (log st) ++ pjobs st = pushes /\
    completed (log st) ++ inflight (cons st) ++ cjobs st = calls.
Proof.
  intros. destruct (run_accepted sched _ (init_inv' a0 pushes calls)) as (st & q & m & H & A & _).
  exists st, q, m. split; [exact H|]. split; [exact A|].
  apply (run_jobs sched (init a0 pushes calls) st pushes calls); [split; reflexivity|exact H].
Qed.
Print Assumptions C36_linearizable.
(* the popped values are a prefix of the pushed ones; the rest is in the queue *)
Theorem C36_fifo : forall (T : Type) sched a0 (pushes : list T) calls st,
  run sched (init a0 pushes calls) = Ok st ->
  exists q, map Some (pushed (log st)) = popped (log st) ++ map Some q /\
    exists rest, map Some pushes = popped (log st) ++ rest.
Proof.
  intros T sched a0 pushes calls st H. destruct (C36_linearizable T sched a0 pushes calls) as (st' & q & m & H' & A & B & _).
  rewrite H in H'. injection H' as <-. apply accepted_fifo in A. exists q. split; [exact A|].
  exists (map Some q ++ map Some (pjobs st)). rewrite <- B, map_app, A. now rewrite app_assoc.
Qed.
Print Assumptions C36_fifo.
(* no two plain accesses of the two threads to a node can race *)
Theorem C36_no_data_race : forall (T : Type) sched a0 (pushes : list T) calls st x y,
  run sched (init a0 pushes calls) = Ok st -> paccess st = Some x -> caccess st = Some y -> ~ conflict x y.
Proof.
  intros T sched a0 pushes calls st x y H HP HC. destruct (run_inv sched _ (init_inv' a0 pushes calls)) as (st' & H' & I).
  rewrite H in H'. injection H' as <-. eapply inv_no_race; eauto.
Qed.
Print Assumptions C36_no_data_race.
(* no thread ever waits for the other: a thread with work left can always take a step
   (the producer: if the allocator gives a fresh address), and the total number of steps
   is bounded whatever the schedule *)
Theorem C36_wait_free : forall (T : Type) sched a0 (pushes : list T) calls,
  busy sched (init a0 pushes calls) <= 8 * length pushes + 10 + length calls * (length pushes + 6) /\
  (forall a st, pstep a st = Ok None -> prod (T := T) st = PIdle /\ (pjobs st = [] \/ hp st a <> None)) /\
  (forall st : state T, cstep st = Ok None -> cons st = CIdle /\ cjobs st = []).
Proof. intros. split; [apply busy_init|]. split; [apply pstep_stuck|apply cstep_stuck]. Qed.
Print Assumptions C36_wait_free.

(* no access to or deletion of a dead node, no null dereference *)
Theorem C37_memory_safe : forall (T : Type) sched a0 (pushes : list T) calls,
  exists st, run sched (init a0 pushes calls) = Ok st.
Proof. intros. destruct (run_inv sched _ (init_inv' a0 pushes calls)) as (st & H & _). eauto. Qed.
Print Assumptions C37_memory_safe.
(* the destructor frees all that is left, each node once (a second deletion would be UB) *)
Theorem C37_destructor : forall (T : Type) sched a0 (pushes : list T) calls st,
  run sched (init a0 pushes calls) = Ok st -> prod st = PIdle ->
  exists n, forall fuel, n <= fuel -> exists h, destroy fuel (hp st) (Some (first st)) = Ok h /\ forall a, h a = None.
Proof.
  intros T sched a0 pushes calls st H HP. destruct (run_inv sched _ (init_inv' a0 pushes calls)) as (st' & H' & I).
  rewrite H in H'. injection H' as <-. now apply destroy_ok.
Qed.
Print Assumptions C37_destructor.
(* clear() leaves one node and an empty queue, which works like a new one *)
Theorem C37_clear : forall (T : Type) sched a0 (pushes : list T) calls st,
  run sched (init a0 pushes calls) = Ok st -> prod st = PIdle -> cons st = CIdle ->
  exists n, forall fuel, n <= fuel -> exists st', clear fuel st = Ok st' /\
    (forall a, live (hp st') a <-> a = first st') /\ dummy st' = first st' /\ last st' = first st' /\
    pjobs st' = pjobs st /\ cjobs st' = cjobs st /\
    forall sched', exists fin q m, run sched' (forget st') = Ok fin /\ accepted (log fin) q m /\
      pushed (log fin) ++ pjobs fin = pjobs st /\
      completed (log fin) ++ inflight (cons fin) ++ cjobs fin = cjobs st.
Proof.
  intros T sched a0 pushes calls st H HP HC. destruct (run_inv sched _ (init_inv' a0 pushes calls)) as (st1 & H' & I).
  rewrite H in H'. injection H' as <-. destruct (clear_ok st I HP HC) as (n & K). exists n. intros fuel F.
  destruct (K fuel F) as (st' & E & (x & He) & Ho & Ed & El & Ep & Ec & _ & I'). exists st'. split; [exact E|]. split.
  { intros a. unfold live. split; [|intros ->; congruence]. intros L. destruct (Nat.eq_dec a (first st')); auto. contradiction (L (Ho a n0)). }
  split; [exact Ed|]. split; [exact El|]. split; [exact Ep|]. split; [exact Ec|]. intros sched'.
  destruct (run_accepted sched' _ I') as (fin & q & m & R & A & _). exists fin, q, m. split; [exact R|]. split; [exact A|].
  assert (J : jobs_inv (pjobs st) (cjobs st) (forget st')).
  { unfold jobs_inv, forget. cbn. rewrite Ep, Ec. split; auto. assert (CC : cons st' = CIdle); [|now rewrite CC].
    clear - E HC. destruct st as [h f d l p c pj cj lg]. cbn in *. subst c. destruct (clear1 fuel h f d); try discriminate. cbn [obind] in E.
    destruct (clear2 fuel a d) as [(h2, f2)| | | |]; try discriminate. injection E as <-. reflexivity. }
  exact (run_jobs sched' (forget st') fin _ _ J R).
Qed.
Print Assumptions C37_clear.

(* --- examples --------------------------------------------------------------------------- *)
(* push 7 (node 1), pop it while push 8 (node 2) is in progress; node 0 is freed by it;
   pop again in the middle of the publication: fails; then size and the last pop *)
Definition sched1 : list turn :=
  [P 1; P 1; P 1; P 1; P 1] ++ [C; C; P 2; C; P 2; C; P 2; C; C] ++ [C; C] ++ [P 2; P 0; P 0; P 0; P 0] ++
  [C; C; C; C] ++ [C; C; C; C; C; C].
Example C36_ex : omap (fun st => (log st, first st, dummy st, last st)) (run sched1 (init 0 [7; 8] [Pop; Pop; Size; Pop]))
  = Ok ([EPush 7; EPop (Some 7); EPopFail; EPush 8; ESizeRead; ESize 1; EPop (Some 8)], 1, 2, 2).
Proof. vm_compute. reflexivity. Qed.
(* node 0 was freed while the queue was in use; at the end nodes 1 and 2 are live *)
Example C37_ex : omap (fun st => map (hp st) [0; 1; 2; 3]) (run sched1 (init 0 [7; 8] [Pop; Pop; Size; Pop]))
  = Ok [None; Some (Node None (Some 2)); Some (Node None None); None].
Proof. vm_compute. reflexivity. Qed.
Example C37_ex_destroy : omap (fun h => map h [0; 1; 2; 3])
  (st <- run sched1 (init 0 [7; 8] [Pop; Pop; Size; Pop]) ;; destroy 2 (hp st) (Some (first st))) = Ok [None; None; None; None].
Proof. vm_compute. reflexivity. Qed.
(* an access conflict would be possible between different steps: the accesses do overlap in general *)
Example C36_ex_conflict : conflict (3, FNext, true) (3, FNext, false) /\ ~ conflict (3, FNext, true) (3, FData, true).
Proof. split; [repeat split; auto; now left|]. intros (_ & O & _). destruct O as [?|[?|?]]; discriminate. Qed.
