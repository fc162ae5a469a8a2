(* C39: the worker pool. *)
From Verif Require Import Base IndexProofs VecProofs PoolModel PoolSpec PoolProofs PoolProofs2.

(* any program that uses the pool within its bounds runs without undefined behaviour under
   every schedule, and its calls return in program order *)
Theorem C39_safe : forall (T : Type) (p : list (op T)) sched, well_used 0 p ->
  exists st, run sched (init p) = Ok st /\ returned (log st) ++ calling (own st) ++ prog st = p.
Proof.
  intros T p sched U. destruct (run_inv sched p _ (init_inv p U)) as (st & H & I). exists st. split; [exact H|apply (i_prog _ _ I)].
Qed.
Print Assumptions C39_safe.
(* process() without workers is out of bounds *)
Theorem C39_no_worker_ub : forall (T : Type) (t : T) p, run [TO] (init (Process t :: p)) = UB.
Proof. reflexivity. Qed.
Print Assumptions C39_no_worker_ub.
(* each worker takes the items it was given in order, one at a time, each at most once *)
Theorem C39_in_order : forall (T : Type) (p : list (op T)) sched st i, well_used 0 p -> run sched (init p) = Ok st ->
  let g := gen (log st) in
  (exists rest, given i g = begun i g ++ rest) /\ (begun i g = ended i g \/ exists t, begun i g = ended i g ++ [t]).
Proof.
  intros T p sched st i U H g. destruct (run_inv sched p _ (init_inv p U)) as (st' & H' & I). rewrite H in H'. injection H' as <-.
  destruct (nth_error (ws st) i) as [x|] eqn:X.
  - destruct (i_w _ _ I i x X) as (A & B & _). fold g in A, B. split; [eauto|]. destruct (wat x); cbn in B; rewrite ?app_nil_r in B; eauto.
  - apply nth_error_None in X. destruct (i_none _ _ I i X) as (A & B & C). fold g in A, B, C. rewrite A, B, C. split; [now exists []|now left].
Qed.
Print Assumptions C39_in_order.
(* process(t) deals the items to the workers in turn: the k-th one goes to worker k mod n *)
Theorem C39_round_robin : forall (T : Type) (p : list (op T)) sched st, well_used 0 p -> run sched (init p) = Ok st ->
  let g := targets (gen (log st)) in ws st <> [] -> g = map (fun k => k mod length (ws st)) (seq 0 (length g)).
Proof.
  intros T p sched st U H g NE. destruct (run_inv sched p _ (init_inv p U)) as (st' & H' & I). rewrite H in H'. injection H' as <-.
  destruct (i_rr _ _ I) as [E|(E & _)]; [contradiction|exact E].
Qed.
Print Assumptions C39_round_robin.
(* when join() returns after consume_all(), with nothing given in between, every item has
   been processed, once, to the end *)
Theorem C39_drain_join : forall (T : Type) (p : list (op T)) sched st before after, well_used 0 p -> run sched (init p) = Ok st ->
  log st = before ++ EJoined :: after -> drained (gen before) ->
  forall i, ended i (gen before) = given i (gen before).
Proof.
  intros T p sched st before after U H E DR i. destruct (run_inv sched p _ (init_inv p U)) as (st' & H' & I). rewrite H in H'. injection H' as <-.
  symmetry. eapply (i_joined _ _ I); eauto.
Qed.
Print Assumptions C39_drain_join.
(* consume_all() returns once each worker has had 2 n + 1 turns, n being its number of
   pending items, and then the owner one per worker and one more *)
Theorem C39_consume_all_returns : forall (T : Type) (p : list (op T)) sched st m1 m2 k, well_used 0 p -> run sched (init p) = Ok st ->
  own st = OScan k -> (forall i x, nth_error (ws st) i = Some x -> shut x = false) ->
  (forall i x, nth_error (ws st) i = Some x -> 2 * length (inq x) + 1 <= wturns i m1) -> length (ws st) + 1 <= oturns m2 ->
  returned_with EDrained st (m1 ++ m2).
Proof.
  intros T p sched st m1 m2 k U H. destruct (run_inv sched p _ (init_inv p U)) as (st' & H' & I). rewrite H in H'. injection H' as <-.
  intros. eapply consume_all_returns; eauto.
Qed.
Print Assumptions C39_consume_all_returns.
Theorem C39_join_returns : forall (T : Type) (p : list (op T)) sched st m1 m2 k, well_used 0 p -> run sched (init p) = Ok st ->
  own st = OWait k ->
  (forall i x, nth_error (ws st) i = Some x -> 2 * length (inq x) + 3 <= wturns i m1) -> length (ws st) + 1 <= oturns m2 ->
  returned_with EJoined st (m1 ++ m2).
Proof.
  intros T p sched st m1 m2 k U H. destruct (run_inv sched p _ (init_inv p U)) as (st' & H' & I). rewrite H in H'. injection H' as <-.
  intros. eapply join_returns; eauto.
Qed.
Print Assumptions C39_join_returns.
(* join() alone may lose items: it returns although an item was never begun *)
Theorem C39_join_refuted : exists (p : list (op nat)) sched st, well_used 0 p /\ run sched (init p) = Ok st /\
  In EJoined (log st) /\ given 0 (log st) = [7] /\ begun 0 (log st) = [] /\ forall more st', run more st = Ok st' -> begun 0 (log st') = [].
Proof.
  exists [Start 1; Process 7; Join], [TO; TO; TO; TO; TO; TO; TW 0; TO; TO; TO].
  assert (E : run [TO; TO; TO; TO; TO; TO; TW 0; TO; TO; TO] (init [Start 1; Process 7; Join])
            = Ok (State [Wk [7] true WDone false] 0 OIdle [] [EStarted 1; EGiven true 0 7; EJoined])) by (vm_compute; reflexivity).
  eexists. split; [cbn; unfold two64; lia|]. split; [exact E|]. split; [cbn; auto|]. split; [reflexivity|]. split; [reflexivity|].
  induction more as [|t more IH]; intros st' R; [unfold run in R; cbn in R; injection R as <-; reflexivity|].
  apply IH. unfold run in *. cbn [ofold] in R. destruct t as [|[|i]]; cbn in R; auto. destruct i; cbn in R; auto.
Qed.
Print Assumptions C39_join_refuted.
(* consume_all() after join() never returns if an item is left to a worker *)
Theorem C39_consume_after_join_refuted : forall (T : Type) (p : list (op T)) sched st i x, well_used 0 p -> run sched (init p) = Ok st ->
  (exists k, own st = OScan k) -> nth_error (ws st) i = Some x -> wat x = WDone -> inq x <> [] ->
  forall more, exists st', run more st = Ok st' /\ exists k, own st' = OScan k.
Proof.
  intros T p sched st i x U H O X W Q more. destruct (run_inv sched p _ (init_inv p U)) as (st1 & H' & I). rewrite H in H'. injection H' as <-.
  destruct (scan_stuck more p st i x I O X W Q) as (st' & R & _ & K & _). eauto.
Qed.
Print Assumptions C39_consume_after_join_refuted.
(* start() on a pool that has not been joined never returns: the destructor of a worker
   waits for its thread without telling it to stop *)
Theorem C39_restart_refuted : forall (T : Type) (p : list (op T)) sched st i x n, well_used 0 p -> run sched (init p) = Ok st ->
  own st = OClear 0 n -> nth_error (ws st) i = Some x -> shut x = false ->
  forall more, exists st' k, run more st = Ok st' /\ own st' = OClear k n.
Proof.
  intros T p sched st i x n U H O X S more. destruct (run_inv sched p _ (init_inv p U)) as (st1 & H' & I). rewrite H in H'. injection H' as <-.
  destruct (clear_stuck more p st i x n 0 I O ltac:(lia) X S) as (st' & k' & x' & R & _ & K & _). eauto.
Qed.
Print Assumptions C39_restart_refuted.

(* two workers, five items, one of them sent to worker 1 explicitly *)
Definition prog1 : list (op nat) := [Start 2; Process 10; Process 11; Process 12; ProcessTo 1 13; Process 14; ConsumeAll; Join; Start 1; Process 20].
Definition sched1 : list turn :=
  [TO; TO; TO; TO; TW 1; TW 1; TW 0; TW 0; TO; TO; TW 1; TW 1; TO; TO; TO; TO; TO] ++
  [TW 0; TW 1; TW 0; TW 1; TW 0; TW 1; TW 0; TW 1; TO; TO; TO; TO; TO; TO; TO; TO] ++
  [TW 0; TW 1; TW 0; TW 1; TW 0; TW 1; TW 0; TW 1; TW 0; TW 1; TO; TO; TO; TO; TO; TO; TO; TO; TO; TO; TO].
Example C39_ex : omap (fun st => (log st, own st)) (run sched1 (init prog1))
  = Ok ([EStarted 2; EGiven true 0 10; EGiven true 1 11; EBegin 1 11; EBegin 0 10; EGiven true 0 12; EGiven false 1 13; EEnd 1 11; EBegin 1 13;
         EGiven true 1 14; EEnd 0 10; EEnd 1 13; EBegin 0 12; EBegin 1 14; EEnd 0 12; EEnd 1 14; EDrained; EJoined; EStarted 1; EGiven true 0 20], OIdle).
Proof. vm_compute. reflexivity. Qed.
