(* Lemmas on fits of sums of templates, part 2: the normal equations give the least squares. *)
From Coq Require Import QArith Lqa ZifyBool ZifyNat.
From Verif Require Import Base ConvSpec ConvProofs.
Local Open Scope nat_scope.

Lemma qsum_swap f n m : (qsum (fun i => qsum (fun j => f i j) m) n == qsum (fun j => qsum (fun i => f i j) n) m)%Q.
Proof.
  induction n as [|n IH]; cbn [qsum].
  - induction m as [|m IHm]; cbn [qsum]; [reflexivity|]. rewrite <- IHm. ring.
  - rewrite IH. rewrite <- qsum_add. reflexivity.
Qed.
Lemma qsum_zero f n : (forall i, i < n -> (f i == 0)%Q) -> (qsum f n == 0)%Q.
Proof. intros H. induction n as [|n IH]; cbn [qsum]; [reflexivity|]. rewrite IH, H by (intros; auto with arith). ring. Qed.
Lemma qsum_nonneg f n : (forall i, i < n -> (0 <= f i)%Q) -> (0 <= qsum f n)%Q.
Proof. intros H. induction n as [|n IH]; cbn [qsum]; [lra|]. specialize (H n (Nat.lt_succ_diag_r n)) as Hn. specialize (IH (fun i Hi => H i (Nat.lt_lt_succ_r _ _ Hi))). lra. Qed.
Lemma qsum_pick f i n : i < n -> (forall j, j < n -> j <> i -> (f j == 0)%Q) -> (qsum f n == f i)%Q.
Proof.
  induction n as [|n IH]; intros Hi H; [lia|]. cbn [qsum]. destruct (Nat.eq_dec i n) as [->|Hne].
  - rewrite qsum_zero; [ring|]. intros j Hj. apply H; lia.
  - rewrite IH by (try lia; intros; apply H; lia). rewrite (H n) by lia. ring.
Qed.
Lemma qsum_front f n : (qsum f (S n) == f O + qsum (fun i => f (S i)) n)%Q.
Proof. induction n as [|n IH]; cbn [qsum] in *; [ring|]. rewrite IH. ring. Qed.

Section LS.
(* n templates x, in m bands *)
Variables (n m : nat) (x : nat -> nat -> Q) (y : nat -> Q) (G : nat -> nat -> Q) (M : nat -> nat -> Q).
Let dot i j := qsum (fun b => x i b * x j b)%Q m.
Let beta i := qsum (fun b => y b * x i b)%Q m.
Hypothesis HG : forall i j, i < n -> j < n -> (G i j == dot i j)%Q.
Hypothesis HM : forall i k, i < n -> k < n -> (qsum (fun j => G i j * M j k) n == if i =? k then 1 else 0)%Q.
Variable a : nat -> Q.
Hypothesis Ha : forall i, i < n -> (a i == qsum (fun k => M i k * beta k) n)%Q.

Lemma normal i : i < n -> (qsum (fun j => dot i j * a j) n == beta i)%Q.
Proof.
  intros Hi. rewrite (qsum_ext _ (fun j => qsum (fun k => G i j * M j k * beta k)%Q n)).
  2:{ intros j Hj. rewrite Ha by exact Hj. rewrite <- HG by assumption. rewrite <- qsum_mul. apply qsum_ext. intros. ring. }
  rewrite qsum_swap. rewrite (qsum_ext _ (fun k => (if i =? k then 1 else 0) * beta k)%Q).
  2:{ intros k Hk. rewrite <- HM by assumption. rewrite (qsum_ext _ (fun j => beta k * (G i j * M j k))%Q) by (intros; ring). rewrite qsum_mul. ring. }
  rewrite (qsum_pick _ i n Hi); [rewrite Nat.eqb_refl; ring|]. intros j Hj Hne. destruct (Nat.eqb_spec i j); [lia|ring].
Qed.

Definition chi (b : nat -> Q) : Q := qsum (fun k => (y k - qsum (fun l => b l * x l k) n) * (y k - qsum (fun l => b l * x l k) n))%Q m.
Lemma least b : (chi a <= chi b)%Q.
Proof.
  unfold chi. set (r := fun k => (y k - qsum (fun l => a l * x l k) n)%Q). set (v := fun k => qsum (fun l => (a l - b l) * x l k)%Q n).
  assert (E : (qsum (fun k => (y k - qsum (fun l => b l * x l k) n) * (y k - qsum (fun l => b l * x l k) n)) m ==
               qsum (fun k => r k * r k) m + 2 * qsum (fun k => r k * v k) m + qsum (fun k => v k * v k) m)%Q).
  { rewrite <- qsum_mul, <- !qsum_add. apply qsum_ext. intros k _.
    assert (Ek : (y k - qsum (fun l => b l * x l k) n == r k + v k)%Q).
    { unfold r, v. rewrite (qsum_ext (fun l => (a l - b l) * x l k)%Q (fun l => a l * x l k + - 1 * (b l * x l k))%Q) by (intros; ring).
      rewrite qsum_add, qsum_mul. ring. }
    rewrite Ek. ring. }
  assert (Z : (qsum (fun k => r k * v k) m == 0)%Q).
  { unfold v. rewrite (qsum_ext _ (fun k => qsum (fun l => (a l - b l) * (x l k * r k))%Q n)).
    2:{ intros k _. rewrite <- qsum_mul. apply qsum_ext. intros. ring. }
    rewrite qsum_swap. apply qsum_zero. intros l Hl. rewrite qsum_mul.
    assert (N : (qsum (fun k => x l k * r k) m == 0)%Q); [|rewrite N; ring].
    unfold r. rewrite (qsum_ext _ (fun k => y k * x l k + - 1 * qsum (fun j => x l k * x j k * a j)%Q n)%Q).
    2:{ intros k _. rewrite (qsum_ext (fun j => x l k * x j k * a j)%Q (fun j => x l k * (a j * x j k))%Q) by (intros; ring). rewrite qsum_mul. ring. }
    rewrite qsum_add, qsum_mul, qsum_swap. pose proof (normal l Hl) as P. unfold beta in P. rewrite <- P.
    rewrite (qsum_ext (fun j => qsum (fun i => x l i * x j i * a j) m)%Q (fun j => dot l j * a j)%Q); [ring|].
    intros j _. unfold dot. rewrite (qsum_ext (fun i => x l i * x j i * a j)%Q (fun i => a j * (x l i * x j i))%Q) by (intros; ring). rewrite qsum_mul. ring. }
  assert (P : (0 <= qsum (fun k => v k * v k) m)%Q) by (apply qsum_nonneg; intros; nra).
  rewrite E, Z. fold (r). change (qsum (fun k => (y k - qsum (fun l => a l * x l k) n) * (y k - qsum (fun l => a l * x l k) n))%Q m) with (qsum (fun k => (r k * r k)%Q) m). lra.
Qed.
End LS.
