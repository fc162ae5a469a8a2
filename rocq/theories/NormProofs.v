(* Proofs for C102. *)
From Coq Require Import QArith Qfield Lqa Lia.
From Verif Require Import Base NormModel NormSpec.
Local Open Scope nat_scope.

Lemma below_true a q : below a (Fin q) = true <-> (a < q)%Q.
Proof. unfold below. rewrite Bool.negb_true_iff. split; intros H; [apply Qnot_le_lt; intros K; apply Qle_bool_iff in K; congruence|]. apply Bool.not_true_is_false. intros K. apply Qle_bool_iff in K. lra. Qed.
Lemma above_true a q : above (Fin q) a = true <-> (q < a)%Q.
Proof. unfold above. rewrite Bool.negb_true_iff. split; intros H; [apply Qnot_le_lt; intros K; apply Qle_bool_iff in K; congruence|]. apply Bool.not_true_is_false. intros K. apply Qle_bool_iff in K. lra. Qed.
Lemma below_false a q : below a (Fin q) = false <-> (q <= a)%Q.
Proof. rewrite <- Bool.not_true_iff_false, below_true. split; [apply Qnot_lt_le|apply Qle_not_lt]. Qed.
Lemma above_false a q : above (Fin q) a = false <-> (a <= q)%Q.
Proof. rewrite <- Bool.not_true_iff_false, above_true. split; [apply Qnot_lt_le|apply Qle_not_lt]. Qed.

Lemma while_stop {S} fuel test (step : S -> S) s : 0 < fuel -> test s = false -> while fuel test step s = Ok s.
Proof. intros H E. destruct fuel; [lia|]. cbn [while]. rewrite E. reflexivity. Qed.
Lemma while_go {S} fuel test (step : S -> S) s : test s = true -> while (Datatypes.S fuel) test step s = while fuel test step (step s).
Proof. intros E. cbn [while]. rewrite E. reflexivity. Qed.
(* whole turns down and up *)
Lemma down (d : coord) : forall n q, (q <= 360 * inject_Z (Z.of_nat n) + 360)%Q -> exists r (k : Z), (r == q + 360 * inject_Z k)%Q /\ (r <= 360)%Q /\ ((0 <= q)%Q -> (0 <= r)%Q) /\ ((q <= 360)%Q -> r = q) /\
  forall fuel, n < fuel -> while fuel (fun p : coord * coord => below 360 (fst p)) (fun p : coord * coord => (plus (fst p) (-360), snd p)) (Fin q, d) = Ok (Fin r, d).
Proof.
  induction n as [|n IH]; intros q H.
  - exists q, 0%Z. change (inject_Z 0) with 0%Q. change (inject_Z (Z.of_nat 0)) with 0%Q in H. split; [lra|]. split; [lra|]. split; [auto|]. split; [auto|]. intros fuel F. apply while_stop; [lia|]. cbn [fst]. apply below_false. lra.
  - destruct (Qlt_le_dec 360 q) as [G|G].
    + destruct (IH (q + -360)%Q) as (r & k & E & R & P & _ & W). { rewrite Nat2Z.inj_succ in H. unfold Z.succ in H. rewrite inject_Z_plus in H. change (inject_Z 1) with 1%Q in H. lra. }
      exists r, (k - 1)%Z. split; [rewrite E; unfold Z.sub; rewrite inject_Z_plus; change (inject_Z (-(1))) with (-(1))%Q; ring|]. split; [exact R|]. split; [intros _; apply P; lra|]. split; [lra|].
      intros fuel F. destruct fuel as [|fuel]; [lia|]. rewrite while_go by (cbn [fst]; apply below_true; exact G). cbn [fst snd plus]. apply W. lia.
    + exists q, 0%Z. change (inject_Z 0) with 0%Q. split; [lra|]. split; [lra|]. split; [auto|]. split; [auto|]. intros fuel F. apply while_stop; [lia|]. cbn [fst]. apply below_false. lra.
Qed.
Lemma up (d : coord) : forall n q, (- (360 * inject_Z (Z.of_nat n)) <= q)%Q -> exists r (k : Z), (r == q + 360 * inject_Z k)%Q /\ (0 <= r)%Q /\ ((q <= 360)%Q -> (r <= 360)%Q) /\ ((0 <= q)%Q -> r = q) /\
  forall fuel, n < fuel -> while fuel (fun p : coord * coord => above (fst p) 0) (fun p : coord * coord => (plus (fst p) 360, snd p)) (Fin q, d) = Ok (Fin r, d).
Proof.
  induction n as [|n IH]; intros q H.
  - exists q, 0%Z. change (inject_Z 0) with 0%Q. change (inject_Z (Z.of_nat 0)) with 0%Q in H. split; [lra|]. split; [lra|]. split; [auto|]. split; [auto|]. intros fuel F. apply while_stop; [lia|]. cbn [fst]. apply above_false. lra.
  - destruct (Qlt_le_dec q 0) as [G|G].
    + destruct (IH (q + 360)%Q) as (r & k & E & R & P & _ & W). { rewrite Nat2Z.inj_succ in H. unfold Z.succ in H. rewrite inject_Z_plus in H. change (inject_Z 1) with 1%Q in H. lra. }
      exists r, (k + 1)%Z. split; [rewrite E; rewrite inject_Z_plus; change (inject_Z 1) with 1%Q; ring|]. split; [exact R|]. split; [intros _; apply P; lra|]. split; [lra|].
      intros fuel F. destruct fuel as [|fuel]; [lia|]. rewrite while_go by (cbn [fst]; apply above_true; exact G). cbn [fst snd plus]. apply W. lia.
    + exists q, 0%Z. change (inject_Z 0) with 0%Q. split; [lra|]. split; [lra|]. split; [auto|]. split; [auto|]. intros fuel F. apply while_stop; [lia|]. cbn [fst]. apply above_false. lra.
Qed.
Lemma enough q : exists n, (q <= 360 * inject_Z (Z.of_nat n) + 360)%Q /\ (- (360 * inject_Z (Z.of_nat n)) <= q)%Q.
Proof.
  exists (Z.to_nat (Z.abs (Qnum q))). rewrite Z2Nat.id by lia. assert (B : (- inject_Z (Z.abs (Qnum q)) <= q)%Q /\ (q <= inject_Z (Z.abs (Qnum q)))%Q).
  { destruct q as [n d]. unfold Qle, inject_Z. cbn [Qnum Qden Qopp]. split; nia. }
  assert (0 <= inject_Z (Z.abs (Qnum q)))%Q by (change 0%Q with (inject_Z 0); rewrite <- Zle_Qle; lia). lra.
Qed.
(* right ascension, given a finite declination *)
Lemma turns (d : coord) q : exists n r (k : Z), (r == q + 360 * inject_Z k)%Q /\ (0 <= r)%Q /\ (r <= 360)%Q /\ ((0 <= q)%Q -> (q <= 360)%Q -> r = q) /\
  forall fuel, n < fuel -> obind (while fuel (fun p : coord * coord => below 360 (fst p)) (fun p : coord * coord => (plus (fst p) (-360), snd p)) (Fin q, d))
     (while fuel (fun p : coord * coord => above (fst p) 0) (fun p : coord * coord => (plus (fst p) 360, snd p))) = Ok (Fin r, d).
Proof.
  destruct (enough q) as (n & H1 & _). destruct (down d n q H1) as (r1 & k1 & E1 & R1 & P1 & I1 & W1).
  destruct (enough r1) as (m & _ & H2). destruct (up d m r1 H2) as (r & k & E & R & P & I & W).
  exists (max n m), r, (k1 + k)%Z. split; [rewrite E, E1, inject_Z_plus; ring|]. split; [exact R|]. split; [apply P, R1|]. split.
  { intros A B. rewrite (I1 B) in *. auto. }
  intros fuel F. rewrite W1 by lia. cbn [obind]. apply W. lia.
Qed.
(* declination: each loop takes at most one step *)
Definition over (dec : Q) : Q := if Qlt_le_dec 90 dec then (180 - dec)%Q else dec.
Definition under (dec : Q) : Q := if Qlt_le_dec dec (-(90)) then (-(180) - dec)%Q else dec.
Lemma first_loop ra dec fuel : 1 < fuel -> while fuel (fun p : coord * coord => below 90 (snd p)) (fun p : coord * coord => (plus (fst p) 180, from 180 (snd p))) (Fin ra, Fin dec) =
  Ok (Fin (if Qlt_le_dec 90 dec then ra + 180 else ra)%Q, Fin (over dec)).
Proof.
  intros F. unfold over. destruct (Qlt_le_dec 90 dec) as [H|H].
  - destruct fuel as [|fuel]; [lia|]. rewrite while_go by (cbn [snd]; apply below_true; exact H). cbn [fst snd plus from]. apply while_stop; [lia|]. cbn [snd]. apply below_false. lra.
  - apply while_stop; [lia|]. cbn [snd]. apply below_false. exact H.
Qed.
Lemma second_loop ra dec fuel : 1 < fuel -> while fuel (fun p : coord * coord => above (snd p) (-90)) (fun p : coord * coord => (plus (fst p) 180, from (-180) (snd p))) (Fin ra, Fin dec) =
  Ok (Fin (if Qlt_le_dec dec (-(90)) then ra + 180 else ra)%Q, Fin (under dec)).
Proof.
  intros F. unfold under. destruct (Qlt_le_dec dec (-(90))) as [H|H].
  - destruct fuel as [|fuel]; [lia|]. rewrite while_go by (cbn [snd]; apply above_true; exact H). cbn [fst snd plus from]. apply while_stop; [lia|]. cbn [snd]. apply above_false. change (-90 # 1)%Q with (-(90))%Q. lra.
  - apply while_stop; [lia|]. cbn [snd]. apply above_false. exact H.
Qed.
Definition flips (dec : Q) : Q :=
  ((if Qlt_le_dec 90 dec then 180 else 0) + (if Qlt_le_dec (over dec) (-(90)) then 180 else 0))%Q.
Lemma normalize_ok ra dec : exists n r (k : Z), (r == ra + flips dec + 360 * inject_Z k)%Q /\ (0 <= r)%Q /\ (r <= 360)%Q /\
  ((0 <= ra)%Q -> (ra <= 360)%Q -> (-(90) <= dec)%Q -> (dec <= 90)%Q -> r = ra) /\
  forall fuel, n < fuel -> normalize fuel (Fin ra, Fin dec) = Ok (Fin r, Fin (under (over dec))).
Proof.
  destruct (turns (Fin (under (over dec))) (if Qlt_le_dec (over dec) (-(90)) then (if Qlt_le_dec 90 dec then ra + 180 else ra) + 180 else if Qlt_le_dec 90 dec then ra + 180 else ra)%Q) as (n & r & k & E & A & B & I & W).
  exists (S n), r, k. split; [rewrite E; unfold flips; destruct (Qlt_le_dec (over dec) (-(90))), (Qlt_le_dec 90 dec); ring|]. split; [exact A|]. split; [exact B|]. split.
  - intros H1 H2 H3 H4. revert I. unfold over. destruct (Qlt_le_dec 90 dec); [lra|]. destruct (Qlt_le_dec dec (-(90))); [lra|]. auto.
  - intros fuel F. unfold normalize. rewrite first_loop by lia. cbn [obind]. rewrite second_loop by lia. cbn [obind].
    specialize (W fuel ltac:(lia)). exact W.
Qed.
