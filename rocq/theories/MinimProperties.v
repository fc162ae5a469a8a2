(* C130: minimisation. *)
From Coq Require Import QArith Lia.
From Verif Require Import Base FimgProofs MinimModel.
Local Open Scope nat_scope.

(* --- specification ------------------------------------------------------------- *)
(* k iterations that move, none of which ends the search *)
Inductive moves {S} (iterate : S -> step S) (gradient : S -> test) : S -> nat -> S -> Prop :=
| moves_none s : moves iterate gradient s 0 s
| moves_one s s1 k s2 : iterate s = Moved s1 -> gradient s1 = Continue -> moves iterate gradient s1 k s2 -> moves iterate gradient s (k + 1) s2.
(* a minimum was found in the next iteration: no progress, or a small gradient *)
Definition arrives {S} (iterate : S -> step S) (gradient : S -> test) (s s' : S) : Prop :=
  iterate s = NoProgress s' \/ (iterate s = Moved s' /\ gradient s' = Small).
(* the search was given up in the next iteration: an error, or too many iterations *)
Definition gives_up {S} (iterate : S -> step S) (gradient : S -> test) (last : bool) (s s' : S) : Prop :=
  iterate s = Failed s' \/ (iterate s = Moved s' /\ (gradient s' = Wrong \/ (gradient s' = Continue /\ last = true))).

Lemma loop_run {S} (position : S -> list Q) value_at iterate gradient size max : forall fuel s n, n < Nat.max 1 max -> Nat.max 1 max - n <= fuel ->
  exists k s1, moves iterate gradient s k s1 /\ n + k < Nat.max 1 max /\
    ((exists s2, arrives iterate gradient s1 s2 /\ loop position value_at iterate gradient fuel max size s n = Ok (Result true (position s2) (Some (value_at s2)) (n + k + 1))) \/
     (exists s2, gives_up iterate gradient (max <=? n + k + 1) s1 s2 /\ loop position value_at iterate gradient fuel max size s n = Ok (Result false (position s2) (Some (value_at s2)) (n + k + 1))) \/
     (iterate s1 = Thrown /\ loop position value_at iterate gradient fuel max size s n = Ok (Result false (repeat 0%Q size) None (n + k + 1)))).
Proof.
  induction fuel as [|fuel IH]; intros s n L F; [lia|]. cbn [loop].
  destruct (iterate s) as [s1|s1|s1|] eqn:E.
  - destruct (gradient s1) eqn:G.
    + exists 0, s. split; [constructor|]. split; [lia|]. left. exists s1. split; [right; split; assumption|]. rewrite Nat.add_0_r. reflexivity.
    + destruct (n + 1 <? max) eqn:M.
      * apply Nat.ltb_lt in M. destruct (IH s1 (n + 1) ltac:(lia) ltac:(lia)) as (k & s2 & R & K & H). exists (k + 1), s2.
        split; [apply (moves_one _ _ s s1 k s2 E G R)|]. split; [lia|]. replace (n + (k + 1) + 1) with (n + 1 + k + 1) by lia. exact H.
      * apply Nat.ltb_ge in M. exists 0, s. split; [constructor|]. split; [lia|]. right. left. exists s1. rewrite Nat.add_0_r. split; [|reflexivity].
        right. split; [exact E|]. right. split; [exact G|]. apply Nat.leb_le. lia.
    + exists 0, s. split; [constructor|]. split; [lia|]. right. left. exists s1. rewrite Nat.add_0_r. split; [right; split; [exact E|left; exact G]|reflexivity].
  - exists 0, s. split; [constructor|]. split; [lia|]. left. exists s1. split; [left; exact E|]. rewrite Nat.add_0_r. reflexivity.
  - exists 0, s. split; [constructor|]. split; [lia|]. right. left. exists s1. rewrite Nat.add_0_r. split; [left; exact E|reflexivity].
  - exists 0, s. split; [constructor|]. split; [lia|]. right. right. rewrite Nat.add_0_r. split; [exact E|reflexivity].
Qed.
(* the search always ends, after at least one iteration and at most max_iter of them; the result is
   the position and the value of the minimizer at that time, and a success if a minimum was found *)
Theorem C130_result : forall S (position : S -> list Q) value_at iterate gradient s max size,
  exists k s1, moves iterate gradient s k s1 /\ k < Nat.max 1 max /\
    ((exists s2, arrives iterate gradient s1 s2 /\ minimize_bfgs position value_at iterate gradient (Some s) max size = Ok (Result true (position s2) (Some (value_at s2)) (k + 1))) \/
     (exists s2, gives_up iterate gradient (max <=? k + 1) s1 s2 /\ minimize_bfgs position value_at iterate gradient (Some s) max size = Ok (Result false (position s2) (Some (value_at s2)) (k + 1))) \/
     (iterate s1 = Thrown /\ minimize_bfgs position value_at iterate gradient (Some s) max size = Ok (Result false (repeat 0%Q size) None (k + 1)))).
Proof. intros S position value_at iterate gradient s max size. exact (loop_run position value_at iterate gradient size max (max + 1) s 0 ltac:(lia) ltac:(lia)). Qed.
Print Assumptions C130_result.
(* a minimum that the minimizer finds within max_iter iterations is found *)
Theorem C130_success : forall S (position : S -> list Q) value_at iterate gradient s max size k s1 s2,
  moves iterate gradient s k s1 -> k < Nat.max 1 max -> arrives iterate gradient s1 s2 ->
  minimize_bfgs position value_at iterate gradient (Some s) max size = Ok (Result true (position s2) (Some (value_at s2)) (k + 1)).
Proof.
  intros S position value_at iterate gradient s max size k s1 s2 R K A. unfold minimize_bfgs.
  assert (H : forall fuel n, n + k < Nat.max 1 max -> Nat.max 1 max - n <= fuel -> loop position value_at iterate gradient fuel max size s n = Ok (Result true (position s2) (Some (value_at s2)) (n + k + 1))).
  { clear K. induction R as [s|s a k b E G R IH]; intros [|fuel] n L F; try lia; cbn [loop].
    - rewrite Nat.add_0_r. destruct A as [-> |[-> ->]]; reflexivity.
    - rewrite E, G, (proj2 (Nat.ltb_lt (n + 1) max)) by lia. replace (n + (k + 1) + 1) with (n + 1 + k + 1) by lia. apply (IH A fuel (n + 1)); lia. }
  exact (H (max + 1) 0 ltac:(lia) ltac:(lia)).
Qed.
Print Assumptions C130_success.
(* and nothing else is a success *)
Theorem C130_no_success : forall S (position : S -> list Q) value_at iterate gradient s max size r,
  minimize_bfgs position value_at iterate gradient (Some s) max size = Ok r -> success r = true ->
  exists k s1 s2, moves iterate gradient s k s1 /\ k < Nat.max 1 max /\ arrives iterate gradient s1 s2 /\ r = Result true (position s2) (Some (value_at s2)) (k + 1).
Proof.
  intros S position value_at iterate gradient s max size r E T.
  destruct (C130_result S position value_at iterate gradient s max size) as (k & s1 & R & K & [(s2 & A & H)|[(s2 & A & H)|(A & H)]]); rewrite E in H; injection H as ->; try discriminate.
  exists k, s1, s2. repeat split; assumption.
Qed.
Print Assumptions C130_no_success.
(* Finding: an exception of the function to minimise does not reach the caller: the result is a
   failure, at the position 0. *)
Theorem C130_exception_refuted : forall S (position : S -> list Q) value_at iterate gradient s max size k s1,
  moves iterate gradient s k s1 -> k < Nat.max 1 max -> iterate s1 = Thrown ->
  minimize_bfgs position value_at iterate gradient (Some s) max size = Ok (Result false (repeat 0%Q size) None (k + 1)).
Proof.
  intros S position value_at iterate gradient s max size k s1 R K A.
  assert (D : forall s2, ~ (iterate s1 = Moved s2 /\ gradient s2 = Continue)) by (intros s2 [X _]; congruence).
  unfold minimize_bfgs.
  assert (H : forall fuel n, n + k < Nat.max 1 max -> Nat.max 1 max - n <= fuel -> loop position value_at iterate gradient fuel max size s n = Ok (Result false (repeat 0%Q size) None (n + k + 1))).
  { clear K. induction R as [s|s a k b E G R IH]; intros [|fuel] n L F; try lia; cbn [loop].
    - rewrite Nat.add_0_r, A. reflexivity.
    - rewrite E, G, (proj2 (Nat.ltb_lt (n + 1) max)) by lia. replace (n + (k + 1) + 1) with (n + 1 + k + 1) by lia. apply (IH A D fuel (n + 1)); lia. }
  exact (H (max + 1) 0 ltac:(lia) ltac:(lia)).
Qed.
Print Assumptions C130_exception_refuted.
Theorem C130_exception_start : forall S (position : S -> list Q) value_at iterate gradient max size,
  minimize_bfgs position value_at iterate gradient None max size = Ok (Result false (repeat 0%Q size) None 0).
Proof. reflexivity. Qed.
Print Assumptions C130_exception_start.
(* Finding: with max_iter = 0 there is still one iteration. *)
Theorem C130_zero_refuted : forall S (position : S -> list Q) value_at iterate gradient s size r,
  minimize_bfgs position value_at iterate gradient (Some s) 0 size = Ok r -> niter r = 1.
Proof.
  intros S position value_at iterate gradient s size r E.
  destruct (C130_result S position value_at iterate gradient s 0 size) as (k & s1 & R & K & H). cbn in K. assert (k = 0) as -> by lia.
  destruct H as [(s2 & _ & H)|[(s2 & _ & H)|(_ & H)]]; rewrite E in H; injection H as ->; reflexivity.
Qed.
Print Assumptions C130_zero_refuted.
(* the value is the first number the function gives, and the derivatives are the others *)
Theorem C130_function : forall n f g, length g = n -> value_of (f :: g) = Ok f /\ gradient_of n (f :: g) = Ok g /\ both_of n (f :: g) = Ok (f, g).
Proof.
  intros n f g L. assert (H : gradient_of n (f :: g) = Ok g).
  { unfold gradient_of. subst n. rename g into l.
    assert (G : forall (l pre : list Q), omapl (fun i => oget (pre ++ l) i) (seq (length pre) (length l)) = Ok l).
    { clear. induction l as [|a l IH]; intros pre; [reflexivity|]. cbn [length seq omapl]. unfold oget at 1. rewrite nth_error_app2, Nat.sub_diag by lia. cbn [nth_error obind].
      specialize (IH (pre ++ [a])). rewrite <- app_assoc, app_length in IH. cbn [length app] in IH. rewrite Nat.add_1_r in IH. rewrite IH. reflexivity. }
    transitivity (omapl (fun i => oget ([] ++ l) i) (seq (length (@nil Q)) (length l))); [|apply G].
    cbn [app length]. generalize (seq 0 (length l)). intros s. induction s as [|i s IH]; [reflexivity|]. cbn [omapl]. rewrite IH. rewrite Nat.add_1_r. reflexivity. }
  split; [reflexivity|]. split; [exact H|]. unfold both_of. cbn [value_of oget nth_error obind]. rewrite H. reflexivity.
Qed.
Print Assumptions C130_function.
(* Finding: a function that gives too few derivatives is read beyond the end of its result. *)
Theorem C130_short_UB : forall n r, 0 < n -> length r <= n -> gradient_of n r = UB.
Proof.
  intros n r P L. destruct n as [|n]; [lia|].
  destruct (gradient_of (S n) r) as [g| | | |] eqn:E; [exfalso| |reflexivity| |].
  - assert (X : nth_error (seq 0 (S n)) n = Some n) by (rewrite (nth_error_nth' _ 0) by (rewrite seq_length; lia); rewrite seq_nth by lia; reflexivity).
    destruct (omapl_nth _ _ _ _ _ E X) as (y & Y & _). unfold oget in Y. rewrite (proj2 (nth_error_None _ _)) in Y by lia. discriminate.
  - exfalso. unfold gradient_of in E. revert E. generalize (seq 0 (S n)). induction l as [|i l IH]; cbn [omapl]; [discriminate|]. unfold oget at 1. destruct (nth_error r (i + 1)); cbn [obind]; [|discriminate]. destruct (omapl _ l); cbn [obind]; try discriminate. intros _. apply IH. reflexivity.
  - exfalso. unfold gradient_of in E. revert E. generalize (seq 0 (S n)). induction l as [|i l IH]; cbn [omapl]; [discriminate|]. unfold oget at 1. destruct (nth_error r (i + 1)); cbn [obind]; [|discriminate]. destruct (omapl _ l); cbn [obind]; try discriminate. intros _. apply IH. reflexivity.
  - exfalso. unfold gradient_of in E. revert E. generalize (seq 0 (S n)). induction l as [|i l IH]; cbn [omapl]; [discriminate|]. unfold oget at 1. destruct (nth_error r (i + 1)); cbn [obind]; [|discriminate]. destruct (omapl _ l); cbn [obind]; try discriminate. intros _. apply IH. reflexivity.
Qed.
Print Assumptions C130_short_UB.

(* a minimizer that counts down to 0 *)
Example C130_example : minimize_bfgs (fun s : nat => [inject_Z (Z.of_nat s)]) (fun s => inject_Z (Z.of_nat s)) (fun s => Moved (s - 1)) (fun s => if s =? 0 then Small else Continue) (Some 3) 10 1
  = Ok (Result true [0%Q] (Some 0%Q) 3).
Proof. reflexivity. Qed.
Example C130_example_max : minimize_bfgs (fun s : nat => [inject_Z (Z.of_nat s)]) (fun s => inject_Z (Z.of_nat s)) (fun s => Moved (s - 1)) (fun s => if s =? 0 then Small else Continue) (Some 3) 2 1
  = Ok (Result false [1%Q] (Some 1%Q) 2).
Proof. reflexivity. Qed.
