(* C38: the background worker. *)
From Verif Require Import Base WorkerModel WorkerSpec WorkerProofs.

(* whatever the interleaving, the jobs run one at a time, in the order of the pushes and
   each at most once, and the calls of the owner return in program order *)
Theorem C38_in_order : forall (J : Type) (p : list (mop J)) sched,
  in_order (log (run sched (init p))) /\
  returned (log (run sched (init p))) ++ calling (owner (run sched (init p))) ++ prog (run sched (init p)) = p.
Proof.
  intros. pose proof (run_inv sched p _ (init_inv p)) as I. split; [|apply (i_prog _ _ I)]. split.
  - exists (queue (run sched (init p))). apply (i_push _ _ I).
  - pose proof (i_cur _ _ I) as C. destruct (worker (run sched (init p))); cbn in C; rewrite ?app_nil_r in C; eauto.
Qed.
Print Assumptions C38_in_order.
(* when wait() returns, all the jobs pushed before have been run to the end *)
Theorem C38_wait_complete : forall (J : Type) (p : list (mop J)) sched before after,
  log (run sched (init p)) = before ++ EWaited :: after -> ends before = pushes before.
Proof. intros J p sched. pose proof (run_inv sched p _ (init_inv p)) as I. apply (i_wait _ _ I). Qed.
Print Assumptions C38_wait_complete.
(* wait() returns: once the owner is in join, any schedule that gives the worker thread
   2 n + 7 turns, n being the number of jobs left, brings it to the end of its loop (one
   turn is one job or one step of the loop), and then join returns.  The worker is never
   stopped before *)
Theorem C38_wait_returns : forall (J : Type) (p : list (mop J)) sched more,
  owner (run sched (init p)) = MJoin ->
  2 * length (queue (run sched (init p))) + 7 <= wturns more ->
  exists a b, more = a ++ b /\ worker (run (sched ++ a) (init p)) = WDone /\
    exists st, mstep (run (sched ++ a) (init p)) = Some st /\ worker st = WNone /\
    exists st', mstep st = Some st' /\ log st' = log (run (sched ++ a) (init p)) ++ [EWaited] /\ stop st' = false.
Proof.
  intros J p sched more HO L. pose proof (run_inv sched p _ (init_inv p)) as I.
  destruct (join_ends more p _ I HO) as (a & b & -> & O & D).
  { etransitivity; [|exact L]. unfold wleft. destruct (worker (run sched (init p))), (queue (run sched (init p))); cbn; lia. }
  exists a, b. split; [reflexivity|]. unfold run in *. rewrite fold_left_app. split; [exact D|].
  destruct (fold_left step a (fold_left step sched (init p))) as [q s w m pr lg]. cbn in O, D. subst w m. cbn.
  eexists. split; [reflexivity|]. split; [reflexivity|]. eexists. split; [reflexivity|]. auto.
Qed.
Print Assumptions C38_wait_returns.
(* push() never blocks, and wait() with nothing ever pushed returns at once *)
Theorem C38_push_never_blocks : forall (J : Type) (s : state J),
  mstep s = None -> (owner s = MIdle /\ prog s = []) \/ (owner s = MJoin /\ worker s <> WDone).
Proof.
  intros J [q b w m p lg] H. cbn in *. destruct m.
  - destruct p as [|[j|] p]; [auto|discriminate|destruct w; discriminate].
  - discriminate.
  - right. split; auto. intros ->. discriminate.
  - discriminate.
Qed.
Print Assumptions C38_push_never_blocks.

(* two jobs, wait, a third one (a new thread), wait *)
Definition prog1 : list (mop nat) := [MPush 1; MPush 2; MWait; MPush 3; MWait].
Definition sched1 : list turn := [M; W; M; W; M; M; W; M; W; W; W; W; W; W; W; W; W; M; M; M; M; M; W; W; W; W; W; W; W; W; M; M; M].
Example C38_ex : log (run sched1 (init prog1))
  = [EPushed 1; EStart 1; EPushed 2; EEnd 1; EStart 2; EEnd 2; EWaited; EPushed 3; EStart 3; EEnd 3; EWaited].
Proof. vm_compute. reflexivity. Qed.
(* without a wait nothing forces the jobs to run *)
Example C38_ex_no_wait : log (run [M; M; M; M] (init [MPush 1; MPush 2])) = [EPushed 1; EPushed 2].
Proof. vm_compute. reflexivity. Qed.
