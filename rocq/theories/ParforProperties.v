(* C40: parallel_for. *)
From Verif Require Import Base IndexModel IndexSpec IndexProofs ParforModel ParforSpec ParforProofs.
Local Open Scope Z_scope.

(* over [0, e), with at least two chunks: under every schedule no index outside is used, none
   is used twice, and when the threads have been joined each has been used once *)
Theorem C40_each_once : forall nw cs e sched, (0 < nw)%nat -> 0 <= cs < two64 -> 0 <= e < two63 -> 2 <= chunks nw cs e ->
  exists st, run sched (setup nw cs 0 e) = Ok st /\ some_once 0 e (map snd (log st)) /\
    (joined st = true -> each_once 0 e (map snd (log st))).
Proof.
  intros nw cs e sched NW CS E K. destruct (setup_inv nw cs 0 e) as (I & N & W); try lia.
  { rewrite Z.sub_0_r. destruct (Z.eq_dec e 0) as [->|NE]; [now left|]. right. rewrite Z.add_0_l.
    destruct (Z.eq_dec e 1) as [->|N1]; [rewrite Z.div_1_l by lia; lia|].
    assert (e / chunks nw cs e <= e / 2) by (apply Z.div_le_compat_l; lia). pose proof (Z.div_lt_upper_bound e 2 e). pose proof (Z.mul_div_le e 2 ltac:(lia)). lia. }
  destruct (run_inv sched 0 _ I) as (st & R & I' & L & N'). exists st. split; [exact R|]. rewrite N, Z.sub_0_r in N'. rewrite <- N'. split; [now apply inv_some_once|].
  intros J. apply inv_joined; auto. intros Z. rewrite W, Z in L. cbn in L. rewrite repeat_length in L. lia.
Qed.
Print Assumptions C40_each_once.
(* and it ends: at most 3 e + nw turns do something, and a thread that is not finished can
   always take a turn *)
Theorem C40_terminates : forall nw cs e sched, (0 < nw)%nat -> 0 <= cs < two64 -> 0 <= e < two63 -> 2 <= chunks nw cs e ->
  (busy sched (setup nw cs 0 e) <= 3 * Z.to_nat e + nw)%nat /\
  (forall w st, wstep w st = Ok None -> (w < length (ws st))%nat -> nth_error (ws st) w = Some WDone).
Proof.
  intros nw cs e sched NW CS E K. split; [|apply wstep_stuck]. destruct (setup_inv nw cs 0 e) as (I & N & W); try lia.
  { rewrite Z.sub_0_r. destruct (Z.eq_dec e 0) as [->|NE]; [now left|]. right. rewrite Z.add_0_l.
    destruct (Z.eq_dec e 1) as [->|N1]; [rewrite Z.div_1_l by lia; lia|].
    assert (e / chunks nw cs e <= e / 2) by (apply Z.div_le_compat_l; lia). pose proof (Z.mul_div_le e 2 ltac:(lia)). lia. }
  pose proof (busy_bound sched 0 _ I) as B. rewrite (meas_setup nw) in B by exact W. rewrite N in B. cbn [i0 setup] in B. rewrite !Z.sub_0_r in B. exact B.
Qed.
Print Assumptions C40_terminates.
(* two workers, or a chunk size of at most half the number of indices, are enough *)
Theorem C40_two_chunks : forall nw cs e, 0 <= e -> (2 <= nw)%nat \/ (0 < cs /\ 2 * cs <= e) -> 2 <= chunks nw cs e.
Proof.
  intros nw cs e E H. unfold chunks. destruct (Z.eqb_spec cs 0) as [->|N]; [lia|]. destruct H as [H|(H1 & H2)]; [lia|].
  assert (2 <= e / cs) by (apply Z.div_le_lower_bound; lia). lia.
Qed.
Print Assumptions C40_two_chunks.
(* without workers *)
Theorem C40_serial : forall f e, 0 <= f <= e -> e < two63 -> exists l, execute_serial f e = Ok l /\ enumerates_up f (e - f) l.
Proof. exact for_range_up. Qed.
Print Assumptions C40_serial.
(* with a single chunk (one worker and the default chunk size) the body is also run for the
   indices e and e + 1 *)
Theorem C40_one_worker_refuted : forall sched cs e, 0 < e -> e + 1 < two63 -> 0 <= cs -> chunks 1 cs e = 1 ->
  exists st, run sched (setup 1 cs 0 e) = Ok st /\ (joined st = true -> each_once 0 (e + 2) (map snd (log st))).
Proof. exact one_chunk. Qed.
Print Assumptions C40_one_worker_refuted.
(* with a first index f > 0, the range is cut at e - f: the last f indices are never run *)
Theorem C40_first_index_refuted : forall nw cs f e sched, (0 < nw)%nat -> 0 <= cs < two64 -> 0 < f -> e < two63 ->
  f + ((e - f) / chunks nw cs (e - f) + 1) <= e - f ->
  exists st, run sched (setup nw cs f e) = Ok st /\ some_once f (e - f) (map snd (log st)) /\
    (joined st = true -> each_once f (e - f) (map snd (log st))).
Proof.
  intros nw cs f e sched NW CS F E H.
  destruct (Z_lt_le_dec (e - f) 0) as [NEG|POS].
  { exfalso. assert (K : 0 < chunks nw cs (e - f)) by (unfold chunks; destruct (cs =? 0); lia).
    assert (Q : e - f <= (e - f) / chunks nw cs (e - f)). { apply Z.div_le_lower_bound; nia. } lia. }
  assert (D : 0 <= (e - f) / chunks nw cs (e - f)). { apply Z.div_pos; [lia|]. unfold chunks. destruct (cs =? 0); lia. }
  destruct (setup_inv nw cs f e) as (I & N & W); try lia.
  destruct (run_inv sched f _ I) as (st & R & I' & L & N'). exists st. split; [exact R|]. rewrite N in N'. rewrite <- N'. split; [now apply inv_some_once|].
  intros J. apply inv_joined; auto. intros Z. rewrite W, Z in L. cbn in L. rewrite repeat_length in L. lia.
Qed.
Print Assumptions C40_first_index_refuted.

(* five indices, two workers *)
Example C40_ex : omap (fun st => (log st, joined st)) (run [0;0;1;1;1;0;1;0;0;1;0]%nat (setup 2 0 0 5))
  = Ok ([(0%nat, 0); (1%nat, 3); (1%nat, 4); (0%nat, 1); (0%nat, 2)], true).
Proof. vm_compute. reflexivity. Qed.
(* one worker, three indices: f(3) and f(4) are run as well *)
Example C40_ex_one_worker : omap (fun st => (map snd (log st), joined st)) (run (repeat 0%nat 12) (setup 1 0 0 3)) = Ok ([0; 1; 2; 3; 4], true).
Proof. vm_compute. reflexivity. Qed.
(* execute(f, 1, 4) with two workers never runs f(3) *)
Example C40_ex_first_index : omap (fun st => (map snd (log st), joined st)) (run (repeat 0%nat 6 ++ [1]%nat) (setup 2 0 1 4)) = Ok ([1; 2], true).
Proof. vm_compute. reflexivity. Qed.
(* execute(f, 10, 12) with two workers runs f(10), f(11), then f(12) down to f(3) *)
Example C40_ex_first_index2 : omap (fun st => (map snd (log st), joined st)) (run (repeat 0%nat 17 ++ [1]%nat) (setup 2 0 10 12))
  = Ok ([10; 11; 12; 11; 10; 9; 8; 7; 6; 5; 4; 3], true).
Proof. vm_compute. reflexivity. Qed.
