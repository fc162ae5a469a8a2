(* Lemmas on fits of sums of templates, part 4: a square matrix has an inverse or a kernel. *)
From Coq Require Import QArith Lqa ZifyBool ZifyNat.
From Verif Require Import Base AsciiProofs6 QstackProofs2 ConvSpec ConvProofs ImageModel MfitSpec MfitProofs2.
Local Open Scope nat_scope.

Definition skip (p j : nat) : nat := if j <? p then j else S j.
Definition unskip (p j : nat) : nat := if j <? p then j else j - 1.
Lemma unskip_skip p j : unskip p (skip p j) = j.
Proof. unfold skip, unskip. destruct (Nat.ltb_spec j p); [replace (j <? p) with true by lia; lia|]. replace (S j <? p) with false by lia. lia. Qed.
Lemma skip_ne p j : skip p j <> p.
Proof. unfold skip. destruct (Nat.ltb_spec j p); lia. Qed.
Lemma qsum_skip f n p : p <= n -> (qsum f (S n) == qsum (fun j => f (skip p j)) n + f p)%Q.
Proof.
  revert p. induction n as [|n IH]; intros p Hp.
  - assert (p = 0) by lia. subst p. cbn [qsum]. ring.
  - destruct (Nat.eq_dec p (S n)) as [->|Hne].
    + cbn [qsum]. rewrite (qsum_ext (fun j => f (skip (S n) j)) f).
      * unfold skip. replace (n <? S n) with true by lia. reflexivity.
      * intros k Hk. unfold skip. replace (k <? S n) with true by lia. reflexivity.
    + change (qsum f (S (S n))) with (qsum f (S n) + f (S n))%Q. rewrite (IH p) by lia. cbn [qsum].
      unfold skip at 3. replace (n <? p) with false by lia. ring.
Qed.

Section Step.
Variables (n : nat) (v : nat -> nat -> Q) (p : nat).
Hypothesis Hp : p <= n.
Hypothesis Hpiv : ~ (v p n == 0)%Q.
Definition co (j : nat) : Q := (v (skip p j) n / v p n)%Q.
Definition wv (j i : nat) : Q := (v (skip p j) i - co j * v p i)%Q.
Definition lift (b : nat -> Q) (j : nat) : Q := if j =? p then (- qsum (fun j => b j * co j) n)%Q else b (unskip p j).
Lemma lift_sum b i : (qsum (fun j => v j i * lift b j) (S n) == qsum (fun j => wv j i * b j) n)%Q.
Proof.
  rewrite (qsum_skip _ n p Hp). unfold lift at 2. rewrite Nat.eqb_refl.
  rewrite (qsum_ext (fun j => v (skip p j) i * lift b (skip p j))%Q (fun j => v (skip p j) i * b j)%Q).
  2:{ intros j _. unfold lift. destruct (Nat.eqb_spec (skip p j) p) as [E|_]; [destruct (skip_ne p j E)|]. rewrite unskip_skip. reflexivity. }
  rewrite (qsum_ext (fun j => wv j i * b j)%Q (fun j => v (skip p j) i * b j + - v p i * (b j * co j))%Q).
  2:{ intros j _. unfold wv. ring. }
  rewrite qsum_add, qsum_mul. ring.
Qed.
Lemma wv_last j : (wv j n == 0)%Q.
Proof. unfold wv, co. field. exact Hpiv. Qed.
Lemma lift_last b : (qsum (fun j => v j n * lift b j) (S n) == 0)%Q.
Proof. rewrite lift_sum. apply qsum_zero. intros j _. rewrite wv_last. ring. Qed.
Lemma lift_nz b j : j < n -> ~ (b j == 0)%Q -> skip p j < S n /\ ~ (lift b (skip p j) == 0)%Q.
Proof.
  intros Hj Hb. split; [unfold skip; destruct (j <? p); lia|]. unfold lift.
  destruct (Nat.eqb_spec (skip p j) p) as [E|_]; [destruct (skip_ne p j E)|]. rewrite unskip_skip. exact Hb.
Qed.
Definition liftM (M : nat -> nat -> Q) (j k : nat) : Q :=
  if k <? n then lift (fun j => M j k) j
  else (/ v p n * ((if j =? p then 1 else 0) - qsum (fun k => v p k * lift (fun j => M j k) j) n))%Q.
Lemma liftM_ok M : (forall i k, i < n -> k < n -> (qsum (fun j => wv j i * M j k) n == if i =? k then 1 else 0)%Q) ->
  forall i k, i < S n -> k < S n -> (qsum (fun j => v j i * liftM M j k) (S n) == if i =? k then 1 else 0)%Q.
Proof.
  intros H. assert (A : forall i k, i < S n -> k < n -> (qsum (fun j => v j i * lift (fun j => M j k) j) (S n) == if i =? k then 1 else 0)%Q).
  { intros i k Hi Hk. destruct (Nat.eq_dec i n) as [->|Hne].
    - rewrite lift_last. replace (n =? k) with false by lia. reflexivity.
    - rewrite lift_sum. apply H; lia. }
  intros i k Hi Hk. unfold liftM. destruct (Nat.ltb_spec k n) as [L|L]; [apply A; assumption|]. assert (k = n) by lia. subst k. clear L Hk.
  rewrite (qsum_ext _ (fun j => / v p n * (v j i * (if j =? p then 1 else 0)) + - / v p n * qsum (fun k => v p k * (v j i * lift (fun j => M j k) j)) n)%Q).
  2:{ intros j _. rewrite (qsum_ext (fun k => v p k * (v j i * lift (fun j => M j k) j))%Q (fun k => v j i * (v p k * lift (fun j => M j k) j))%Q) by (intros; ring).
      rewrite qsum_mul. ring. }
  assert (P1 : (qsum (fun j => v j i * (if j =? p then 1 else 0)) (S n) == v p i)%Q).
  { rewrite (qsum_pick (fun j => v j i * (if j =? p then 1 else 0))%Q p (S n)); [rewrite Nat.eqb_refl; ring|lia|].
    intros j _ Hj. destruct (Nat.eqb_spec j p); [lia|ring]. }
  assert (P2 : (qsum (fun j => qsum (fun k => v p k * (v j i * lift (fun j => M j k) j)) n) (S n) == qsum (fun k => v p k * (if i =? k then 1 else 0)) n)%Q).
  { rewrite qsum_swap. apply qsum_ext. intros k Hk. rewrite qsum_mul. apply Qmult_comp; [reflexivity|]. apply A; assumption. }
  rewrite qsum_add.
  rewrite (qsum_mul (/ v p n) (fun j => v j i * (if j =? p then 1 else 0))%Q).
  rewrite (qsum_mul (- / v p n) (fun j => qsum (fun k => v p k * (v j i * lift (fun j => M j k) j)) n)%Q).
  rewrite P1, P2.
  destruct (Nat.eqb_spec i n) as [->|Hne].
  - rewrite qsum_zero; [field; exact Hpiv|]. intros k Hk. replace (n =? k) with false by lia. ring.
  - rewrite (qsum_pick (fun k => v p k * (if i =? k then 1 else 0))%Q i n); [rewrite Nat.eqb_refl; field; exact Hpiv|lia|].
    intros j _ Hj. destruct (Nat.eqb_spec i j); [lia|ring].
Qed.
End Step.

Lemma find_pivot (f : nat -> Q) n : {p | p <= n /\ ~ (f p == 0)%Q} + {forall p, p <= n -> (f p == 0)%Q}.
Proof.
  induction n as [|n IH].
  - destruct (Qeq_dec (f 0) 0); [right; intros p Hp; now replace p with 0 by lia|left; exists 0; auto].
  - destruct IH as [(p & Hp & E)|H]; [left; exists p; auto|]. destruct (Qeq_dec (f (S n)) 0) as [E|E]; [|left; exists (S n); auto].
    right. intros p Hp. destruct (Nat.eq_dec p (S n)) as [->|]; [exact E|apply H; lia].
Qed.

Definition kernel (r n : nat) (v : nat -> nat -> Q) (b : nat -> Q) : Prop :=
  (exists j, j < n /\ ~ (b j == 0)%Q) /\ forall i, i < r -> (qsum (fun j => v j i * b j) n == 0)%Q.
(* one more vectors than coordinates *)
Lemma too_many n : forall v, {b | kernel n (S n) v b}.
Proof.
  induction n as [|n IH]; intros v.
  - exists (fun _ => 1%Q). split; [exists 0; split; [lia|discriminate]|]. intros i Hi. lia.
  - destruct (find_pivot (fun j => v j n) (S n)) as [(p & Hp & E)|H].
    + assert (Hp' : p <= S n) by exact Hp. set (v' := fun j i => if i =? S n then v j n else v j i).
      assert (E' : ~ (v' p (S n) == 0)%Q) by (unfold v'; rewrite Nat.eqb_refl; exact E).
      destruct (IH (wv (S n) v' p)) as (b & HK). exists (lift (S n) v' p b). destruct HK as ((j & Hj & Hb) & K). split.
      * exists (skip p j). apply lift_nz; assumption.
      * intros i Hi. destruct (Nat.eq_dec i n) as [->|Hne].
        -- pose proof (lift_last (S n) v' p Hp' E' b) as L. rewrite <- L. apply qsum_ext. intros k _. unfold v' at 2. rewrite Nat.eqb_refl. reflexivity.
        -- pose proof (lift_sum (S n) v' p Hp' b i) as L. rewrite K in L by lia. rewrite <- L. apply qsum_ext. intros k _. unfold v' at 2.
           replace (i =? S n) with false by lia. reflexivity.
    + destruct (IH v) as (b & HK). exists (fun k => if k <? S n then b k else 0%Q). destruct HK as ((j & Hj & Hb) & K). split.
      * exists j. split; [lia|]. replace (j <? S n) with true by lia. exact Hb.
      * intros i Hi. destruct (Nat.eq_dec i n) as [->|Hne].
        -- apply qsum_zero. intros k Hk. rewrite H by lia. ring.
        -- change (qsum ?f (S (S n))) with (qsum f (S n) + f (S n))%Q. cbv beta. replace (S n <? S n) with false by lia.
           rewrite (qsum_ext _ (fun j => v j i * b j)%Q) by (intros k Hk; replace (k <? S n) with true by lia; reflexivity).
           rewrite K by lia. ring.
Qed.
Lemma elim n : forall v, {b | kernel n n v b} +
  {M : nat -> nat -> Q | forall i k, i < n -> k < n -> (qsum (fun j => v j i * M j k) n == if i =? k then 1 else 0)%Q}.
Proof.
  induction n as [|n IH]; intros v; [right; exists (fun _ _ => 0%Q); intros; lia|].
  destruct (find_pivot (fun j => v j n) n) as [(p & Hp & E)|H].
  - destruct (IH (wv n v p)) as [(b & HK)|(M & HM)].
    + left. exists (lift n v p b). destruct HK as ((j & Hj & Hb) & K). split; [exists (skip p j); apply lift_nz; assumption|].
      intros i Hi. destruct (Nat.eq_dec i n) as [->|Hne]; [apply lift_last; assumption|]. rewrite lift_sum by assumption. apply K. lia.
    + right. exists (liftM n v p M). apply liftM_ok; assumption.
  - left. destruct (too_many n v) as (b & Hb & K). exists b. split; [exact Hb|]. intros i Hi. destruct (Nat.eq_dec i n) as [->|Hne]; [|apply K; lia].
    apply qsum_zero. intros k Hk. rewrite H by lia. ring.
Qed.

(* the inverse of a symmetric matrix is symmetric *)
Lemma inverse_sym n (G M : nat -> nat -> Q) : (forall i j, i < n -> j < n -> (G i j == G j i)%Q) ->
  (forall i k, i < n -> k < n -> (qsum (fun j => G i j * M j k) n == if i =? k then 1 else 0)%Q) ->
  forall i k, i < n -> k < n -> (M k i == M i k)%Q.
Proof.
  intros HG HM i k Hi Hk.
  assert (A : (qsum (fun l => qsum (fun j => M j i * (G j l * M l k)) n) n == M i k)%Q).
  { rewrite (qsum_ext _ (fun l => (if l =? i then 1 else 0) * M l k)%Q).
    - rewrite (qsum_pick _ i n Hi) by (intros j _ Hj; destruct (Nat.eqb_spec j i); [lia|ring]). rewrite Nat.eqb_refl. ring.
    - intros l Hl. rewrite <- HM by assumption. rewrite (qsum_ext _ (fun j => M l k * (G l j * M j i))%Q) by (intros j Hj; rewrite (HG j l) by assumption; ring).
      rewrite qsum_mul. ring. }
  rewrite <- A. rewrite qsum_swap. rewrite (qsum_ext _ (fun j => M j i * (if j =? k then 1 else 0))%Q).
  - rewrite (qsum_pick _ k n Hk) by (intros j _ Hj; destruct (Nat.eqb_spec j k); [lia|ring]). rewrite Nat.eqb_refl. ring.
  - intros j Hj. rewrite qsum_mul, HM by assumption. reflexivity.
Qed.
Lemma low_sym n a i j : low n a i j = low n a j i.
Proof. unfold low. rewrite Nat.max_comm, Nat.min_comm. reflexivity. Qed.

Definition tab (n : nat) (M : nat -> nat -> Q) : list Q := map (fun p => M (fst p) (snd p)) (list_prod (seq 0 n) (seq 0 n)).
Lemma tab_len n M : length (tab n M) = n * n.
Proof. unfold tab. rewrite map_length, prod_length, seq_length. reflexivity. Qed.
Lemma tab_nth n M i j : i < n -> j < n -> nth (i * n + j) (tab n M) 0%Q = M i j.
Proof.
  intros Hi Hj. apply nth_error_nth. unfold tab. rewrite nth_error_map.
  replace (i * n + j) with (i * length (seq 0 n) + j) by (rewrite seq_length; lia).
  rewrite (nth_error_prod _ _ _ _ i j); [reflexivity|apply seq_nth_ok; lia..].
Qed.
Definition inv_ref (v : img Q) : outcome (option (img Q)) :=
  match elim (nr v) (fun j i => low (nr v) (pix v) i j) with
  | inl _ => Ok None
  | inr (exist _ M _) => Ok (Some (Img (nr v) (nr v) (tab (nr v) M)))
  end.
Lemma inv_ref_inverts : inverts inv_ref.
Proof.
  intros n a La. unfold inv_ref. cbn [nr pix]. destruct (elim n (fun j i => low n a i j)) as [(b & Hb & K)|(M & HM)].
  - right. split; [reflexivity|]. exists b. split; [exact Hb|]. exact K.
  - left. exists (tab n M). split; [reflexivity|]. split; [apply tab_len|]. intros i k Hi Hk. rewrite <- HM by assumption.
    apply qsum_ext. intros j Hj. apply Qmult_comp; [reflexivity|]. unfold low. rewrite tab_nth by lia.
    destruct (Nat.le_ge_cases j k); [|rewrite Nat.max_l, Nat.min_r by lia; reflexivity]. rewrite Nat.max_r, Nat.min_l by lia.
    apply (inverse_sym n (low n a) M); auto. intros. rewrite low_sym. reflexivity.
Qed.

(* sums of squares *)
Lemma squares_zero f m : (qsum (fun k => f k * f k) m == 0)%Q -> forall k, k < m -> (f k == 0)%Q.
Proof.
  induction m as [|m IH]; intros H k Hk; [lia|]. cbn [qsum] in H.
  assert (P : (0 <= qsum (fun k => f k * f k) m)%Q) by (apply qsum_nonneg; intros; nra).
  assert (Fm : (0 <= f m * f m)%Q) by nra.
  destruct (Nat.eq_dec k m) as [->|]; [|apply IH; [lra|lia]].
  assert (Z : (f m * f m == 0)%Q) by lra. apply Qmult_integral in Z. tauto.
Qed.
Section Kernel.
Variables (n m : nat) (x : nat -> nat -> Q).
Let dot i j := qsum (fun b => x i b * x j b)%Q m.
Lemma kernel_mix b : (forall i, i < n -> (qsum (fun j => dot i j * b j) n == 0)%Q) -> forall k, k < m -> (qsum (fun l => b l * x l k) n == 0)%Q.
Proof.
  intros H. apply (squares_zero (fun k => qsum (fun l => b l * x l k)%Q n)).
  rewrite (qsum_ext _ (fun k => qsum (fun l => b l * x l k * qsum (fun j => b j * x j k) n) n)%Q).
  2:{ intros k _. rewrite (qsum_ext (fun l => b l * x l k * qsum (fun j => b j * x j k) n)%Q (fun l => qsum (fun j => b j * x j k) n * (b l * x l k))%Q) by (intros; ring).
      rewrite qsum_mul. reflexivity. }
  rewrite qsum_swap. apply qsum_zero. intros l Hl.
  rewrite (qsum_ext _ (fun k => b l * (x l k * qsum (fun j => b j * x j k) n))%Q) by (intros; ring). rewrite qsum_mul.
  assert (Z : (qsum (fun k => x l k * qsum (fun j => b j * x j k) n) m == 0)%Q); [|rewrite Z; ring].
  rewrite <- (H l Hl). rewrite (qsum_ext _ (fun k => qsum (fun j => x l k * x j k * b j) n)%Q).
  2:{ intros k _. rewrite <- qsum_mul. apply qsum_ext. intros. ring. }
  rewrite qsum_swap. apply qsum_ext. intros j Hj. unfold dot.
  rewrite (qsum_ext _ (fun i => b j * (x l i * x j i))%Q) by (intros; ring). rewrite qsum_mul. ring.
Qed.
Lemma mix_kernel b : (forall k, k < m -> (qsum (fun l => b l * x l k) n == 0)%Q) -> forall i, i < n -> (qsum (fun j => dot i j * b j) n == 0)%Q.
Proof.
  intros H i Hi. rewrite (qsum_ext _ (fun j => qsum (fun k => x i k * (b j * x j k)) m)%Q).
  2:{ intros j Hj. unfold dot. rewrite (qsum_ext (fun k => x i k * (b j * x j k))%Q (fun k => b j * (x i k * x j k))%Q) by (intros; ring). rewrite qsum_mul. ring. }
  rewrite qsum_swap. apply qsum_zero. intros k Hk. rewrite qsum_mul, H by exact Hk. ring.
Qed.
End Kernel.
(* a matrix with an inverse has no kernel *)
Lemma inverse_kernel n (G M : nat -> nat -> Q) b : (forall i j, i < n -> j < n -> (G i j == G j i)%Q) -> (forall i j, i < n -> j < n -> (M i j == M j i)%Q) ->
  (forall i k, i < n -> k < n -> (qsum (fun j => G i j * M j k) n == if i =? k then 1 else 0)%Q) ->
  (forall i, i < n -> (qsum (fun j => G i j * b j) n == 0)%Q) -> forall i, i < n -> (b i == 0)%Q.
Proof.
  intros HG HMs HM K i Hi.
  assert (A : (qsum (fun k => M i k * qsum (fun j => G k j * b j) n) n == 0)%Q) by (apply qsum_zero; intros k Hk; rewrite K by exact Hk; ring).
  rewrite <- A. rewrite (qsum_ext _ (fun k => qsum (fun j => M i k * (G k j * b j)) n)%Q) by (intros k _; rewrite qsum_mul; reflexivity).
  rewrite qsum_swap. rewrite (qsum_ext _ (fun j => (if j =? i then 1 else 0) * b j)%Q).
  - rewrite (qsum_pick (fun j => (if j =? i then 1 else 0) * b j)%Q i n Hi); [rewrite Nat.eqb_refl; ring|]. intros j _ Hj. destruct (Nat.eqb_spec j i); [lia|ring].
  - intros j Hj. rewrite <- HM by assumption. rewrite (qsum_ext _ (fun k => b j * (G j k * M k i))%Q).
    + rewrite qsum_mul. ring.
    + intros k Hk. rewrite (HG k j), (HMs i k) by assumption. ring.
Qed.
