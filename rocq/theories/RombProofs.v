(* The table of Romberg's method. *)
From Coq Require Import QArith Qabs Qfield Lqa.
From Verif Require Import Base OrderModel ReduceModel RombModel RombSpec.
Local Open Scope nat_scope.

Lemma sumf_ext n g h : (forall k, k < n -> (g k == h k)%Q) -> (sumf n g == sumf n h)%Q.
Proof.
  induction n as [|n IH]; intro H; cbn [sumf]; [reflexivity|].
  rewrite (IH (fun k Hk => H k (Nat.lt_lt_succ_r _ _ Hk))), (H n (Nat.lt_succ_diag_r n)). reflexivity.
Qed.
Lemma sumf_mul n c g : (sumf n (fun k => c * g k) == c * sumf n g)%Q.
Proof. induction n as [|n IH]; cbn [sumf]; [ring|]. rewrite IH. ring. Qed.
Lemma sumf_front n g : (sumf (S n) g == g 0%nat + sumf n (fun k => g (S k)))%Q.
Proof. induction n as [|n IH]; [cbn [sumf]; ring|]. cbn [sumf] in *. rewrite IH. ring. Qed.
Lemma sumf_rev n g : (sumf n g == sumf n (fun k => g (n - 1 - k)%nat))%Q.
Proof.
  revert g. induction n as [|n IH]; intro g; [reflexivity|].
  rewrite (sumf_front n (fun k => g (S n - 1 - k)%nat)). cbn [sumf].
  rewrite (IH g). replace (S n - 1 - 0)%nat with n by lia.
  rewrite (sumf_ext n (fun k => g (S n - 1 - S k)%nat) (fun k => g (n - 1 - k)%nat)); [ring|].
  intros k Hk. replace (S n - 1 - S k)%nat with (n - 1 - k)%nat by lia. reflexivity.
Qed.
(* even and odd terms *)
Lemma sumf_split n g : (sumf (2 * n) g == sumf n (fun k => g (2 * k)%nat) + sumf n (fun k => g (2 * k + 1)%nat))%Q.
Proof.
  induction n as [|n IH]; [cbn; ring|]. replace (2 * S n)%nat with (S (S (2 * n))) by lia. cbn [sumf].
  rewrite IH. replace (S (2 * n)) with (2 * n + 1)%nat by lia. ring.
Qed.

Lemma qn_S n : (qn (S n) == qn n + 1)%Q.
Proof. unfold qn. rewrite Nat2Z.inj_succ. unfold Z.succ. rewrite inject_Z_plus. reflexivity. Qed.
Lemma qn_mul a b : (qn (a * b) == qn a * qn b)%Q.
Proof. unfold qn. rewrite Nat2Z.inj_mul, inject_Z_mult. reflexivity. Qed.
Lemma qn_pos n : 0 < n -> ~ (qn n == 0)%Q.
Proof. intros H E. unfold qn, Qeq in E. cbn in E. lia. Qed.
Lemma pow2_pos n : 0 < 2 ^ n.
Proof. induction n; cbn; lia. Qed.
Lemma qn_pow n : qn (2 ^ n) = inject_Z (2 ^ Z.of_nat n).
Proof. unfold qn. rewrite Nat2Z.inj_pow. reflexivity. Qed.

Lemma shl_ok n : n < 31 -> shl1 n = Ok (2 ^ Z.of_nat n)%Z.
Proof. intro H. unfold shl1. destruct (n <? 31) eqn:E; [reflexivity|lia]. Qed.
Lemma pow4 m : (2 ^ Z.of_nat (2 * m) = 4 ^ Z.of_nat m)%Z.
Proof.
  rewrite Nat2Z.inj_mul. change (Z.of_nat 2) with 2%Z. rewrite Z.pow_mul_r by lia. reflexivity.
Qed.
Lemma pow4_big m : 1 <= m -> ~ (inject_Z (4 ^ Z.of_nat m - 1) == 0)%Q.
Proof.
  intros H E. unfold Qeq in E. cbn [Qnum Qden inject_Z] in E.
  assert (4 ^ 1 <= 4 ^ Z.of_nat m)%Z by (apply Z.pow_le_mono_r; lia). lia.
Qed.

Section F.
Variable f : Q -> Q.
Hypothesis Hf : regular f.
Variables x0 x1 : Q.

Lemma points_sum d k : (new_points f x0 d k == sumf k (fun k => f (x0 + inject_Z (2 * Z.of_nat k + 1) * d)))%Q.
Proof.
  unfold new_points. induction k as [|k IH]; [reflexivity|].
  rewrite seq_S, fold_left_app. cbn [fold_left sumf]. rewrite IH.
  replace (2 * Z.of_nat (1 + k) - 1)%Z with (2 * Z.of_nat k + 1)%Z by lia. reflexivity.
Qed.

(* halving the intervals *)
Lemma trapezium_double n : 0 < n ->
  (trapezium f x0 x1 (2 * n) == (1 # 2) * trapezium f x0 x1 n
     + (x1 - x0) / qn (2 * n) * sumf n (fun k => f (x0 + inject_Z (2 * Z.of_nat k + 1) * ((x1 - x0) / qn (2 * n)))))%Q.
Proof.
  intro Hn. unfold trapezium. cbv zeta. set (h := ((x1 - x0) / qn (2 * n))%Q).
  assert (Hh : ((x1 - x0) / qn n == 2 * h)%Q)
    by (unfold h; rewrite qn_mul; change (qn 2) with 2%Q; field; apply qn_pos; exact Hn).
  pose proof (sumf_split n (fun k => f (x0 + qn k * h))%Q) as S1. cbv beta in S1.
  replace (2 * n)%nat with (S (2 * n - 1)) in S1 by lia. rewrite sumf_front in S1.
  destruct n as [|n]; [lia|]. rewrite (sumf_front n) in S1. cbv beta in S1.
  replace (S n - 1)%nat with n by lia.
  assert (E1 : (sumf n (fun k => f (x0 + qn (S k) * ((x1 - x0) / qn (S n)))) ==
                sumf n (fun k => f (x0 + qn (2 * S k) * h)))%Q).
  { apply sumf_ext. intros k _. apply Hf. rewrite Hh, (qn_mul 2). change (qn 2) with 2%Q. ring. }
  assert (E2 : (sumf (S n) (fun k => f (x0 + inject_Z (2 * Z.of_nat k + 1) * h)) ==
                sumf (S n) (fun k => f (x0 + qn (2 * k + 1) * h)))%Q).
  { apply sumf_ext. intros k _. apply Hf. unfold qn.
    replace (Z.of_nat (2 * k + 1)) with (2 * Z.of_nat k + 1)%Z by lia. reflexivity. }
  rewrite E1, E2, Hh. change (2 * 0)%nat with 0%nat in S1.
  assert (E3 : (sumf (2 * S n - 1) (fun k => f (x0 + qn (S k) * h)) ==
    sumf n (fun k => f (x0 + qn (2 * S k) * h)) + sumf (S n) (fun k => f (x0 + qn (2 * k + 1) * h)))%Q) by lra.
  rewrite E3. field.
Qed.

Lemma new_row_start n o : n < 30 -> (o == romberg f x0 x1 n 0)%Q ->
  let d := ((x1 - x0) / inject_Z (2 ^ Z.of_nat (S n)))%Q in
  ((1 # 2) * o + d * new_points f x0 d (Z.to_nat (2 ^ Z.of_nat (S n) / 2)) == romberg f x0 x1 (S n) 0)%Q.
Proof.
  intros Hn Ho d. cbn [romberg] in *.
  assert (E : Z.to_nat (2 ^ Z.of_nat (S n) / 2) = 2 ^ n).
  { rewrite Nat2Z.inj_succ, Z.pow_succ_r, Z.mul_comm, Z.div_mul by lia.
    change 2%Z with (Z.of_nat 2). rewrite <- Nat2Z.inj_pow. apply Nat2Z.id. }
  rewrite E, points_sum, Ho. rewrite Nat.pow_succ_r by lia.
  rewrite (trapezium_double (2 ^ n) (pow2_pos n)).
  assert (Ed : d = ((x1 - x0) / qn (2 * 2 ^ n))%Q).
  { unfold d. rewrite <- Nat.pow_succ_r by lia. rewrite qn_pow. reflexivity. }
  rewrite <- Ed. reflexivity.
Qed.

(* the last row of the table *)
Definition row (n : nat) (b : list Q) (oid : nat) : Prop :=
  length b = oid + n + 1 /\
  forall m, m <= n -> exists q, nth_error b (oid + m) = Some q /\ (q == romberg f x0 x1 n m)%Q.

Definition extend oid := (fun (b : list Q) (m : nat) =>
      t <- shl1 (2 * m) ;; l <- back b ;; p <- oget b (oid + m - 1) ;;
      Ok (b ++ [((inject_Z t * l - p) / inject_Z (t - 1))%Q])).

Lemma extend_ok n b oid : row n b oid -> forall (q0 : Q), (q0 == romberg f x0 x1 (S n) 0)%Q ->
  forall k, k <= S n -> k <= 15 -> exists r,
    ofold (extend oid) (seq 1 k) (b ++ [q0]) = Ok (b ++ r) /\ length r = S k /\
    forall m, m <= k -> exists q, nth_error r m = Some q /\ (q == romberg f x0 x1 (S n) m)%Q.
Proof.
  intros [Hl Hrow] q0 Hq0. induction k as [|k IH]; intros Hk H15.
  - exists [q0]. split; [reflexivity|]. split; [reflexivity|]. intros m Hm. replace m with 0 by lia.
    exists q0. split; [reflexivity|exact Hq0].
  - destruct (IH ltac:(lia) ltac:(lia)) as (r & E & L & R).
    destruct (R k (Nat.le_refl k)) as (l & El & Hl').
    destruct (Hrow k ltac:(lia)) as (p & Ep & Hp).
    exists (r ++ [((inject_Z (4 ^ Z.of_nat (S k)) * l - p) / inject_Z (4 ^ Z.of_nat (S k) - 1))%Q]).
    rewrite seq_S, ofold_app, E. cbn [Base.obind ofold].
    assert (Ex : extend oid (b ++ r) (1 + k) =
      Ok (b ++ r ++ [((inject_Z (4 ^ Z.of_nat (S k)) * l - p) / inject_Z (4 ^ Z.of_nat (S k) - 1))%Q])).
    { unfold extend. change (1 + k) with (S k). rewrite (shl_ok (2 * S k)) by lia. rewrite pow4. cbn [Base.obind].
      unfold back. rewrite (proj2 (oget_Ok Q (b ++ r) (length (b ++ r) - 1) l)).
      2: { rewrite app_length, L. replace (length b + S k - 1) with (length b + k) by lia.
           rewrite nth_error_app2 by lia. replace (length b + k - length b) with k by lia. exact El. }
      cbn [Base.obind]. rewrite (proj2 (oget_Ok Q (b ++ r) (oid + S k - 1) p)).
      2: { rewrite nth_error_app1 by lia. replace (oid + S k - 1) with (oid + k) by lia. exact Ep. }
      cbn [Base.obind]. rewrite <- app_assoc. reflexivity. }
    rewrite Ex. split; [reflexivity|]. split; [rewrite app_length, L; cbn; lia|].
    intros m Hm. destruct (Nat.eq_dec m (S k)) as [->|Hne].
    + eexists. split; [rewrite nth_error_app2 by lia; rewrite L, Nat.sub_diag; reflexivity|].
      cbn [romberg]. replace (S n - 1) with n by lia. rewrite <- Hl', <- Hp.
      assert (E4 : (inject_Z (4 ^ Z.of_nat (S k)) == inject_Z (4 ^ Z.of_nat (S k) - 1) + 1)%Q).
      { change 1%Q with (inject_Z 1). rewrite <- inject_Z_plus.
        replace (4 ^ Z.of_nat (S k) - 1 + 1)%Z with (4 ^ Z.of_nat (S k))%Z by ring. reflexivity. }
      rewrite E4. field. apply pow4_big. lia.
    + destruct (R m ltac:(lia)) as (q & Eq & Hq). exists q. split; [|exact Hq].
      rewrite nth_error_app1 by lia. exact Eq.
Qed.

Lemma round_eq n b oid o : S n < 31 -> oget b oid = Ok o ->
  round f x0 x1 (S n) b oid =
  let d := ((x1 - x0) / inject_Z (2 ^ Z.of_nat (S n)))%Q in
  ofold (extend oid) (seq 1 (S n))
    (b ++ [((1 # 2) * o + d * new_points f x0 d (Z.to_nat (2 ^ Z.of_nat (S n) / 2)))%Q]).
Proof.
  intros H Ho. unfold round. rewrite (shl_ok (S n) H). cbn [Base.obind]. rewrite Ho. reflexivity.
Qed.

Lemma round_ok n b oid : n < 15 -> row n b oid ->
  exists r, round f x0 x1 (S n) b oid = Ok (b ++ r) /\ row (S n) (b ++ r) (oid + S n).
Proof.
  intros Hn Hr. pose proof Hr as [Hl Hrow]. destruct (Hrow 0 ltac:(lia)) as (o & Eo & Ho).
  rewrite Nat.add_0_r in Eo.
  destruct (extend_ok n b oid Hr _ (new_row_start n o ltac:(lia) Ho) (S n) (Nat.le_refl _) ltac:(lia)) as (r & E & L & R).
  exists r. split.
  - rewrite (round_eq n b oid o) by (try lia; apply oget_Ok; exact Eo). exact E.
  - split; [rewrite app_length, L; lia|]. intros m Hm. destruct (R m Hm) as (q & Eq & Hq).
    exists q. split; [|exact Hq]. rewrite nth_error_app2 by lia.
    replace (oid + S n + m - length b) with m by lia. exact Eq.
Qed.

Lemma round_ub n b oid : n = 15 -> row n b oid -> round f x0 x1 (S n) b oid = UB.
Proof.
  intros Hn Hr. pose proof Hr as [Hl Hrow]. destruct (Hrow 0 ltac:(lia)) as (o & Eo & Ho).
  rewrite Nat.add_0_r in Eo.
  destruct (extend_ok n b oid Hr _ (new_row_start n o ltac:(lia) Ho) n ltac:(lia) ltac:(lia)) as (r & E & L & R).
  rewrite (round_eq n b oid o) by (try lia; apply oget_Ok; exact Eo). cbv zeta. rewrite seq_S, ofold_app, E.
  subst n. reflexivity.
Qed.

Variable e : Q.

Lemma goes_on_spec n x y : (x == romberg f x0 x1 n n)%Q -> (y == romberg f x0 x1 n (n - 1))%Q ->
  goes_on x y e = false <-> agree f x0 x1 e n.
Proof.
  intros Hx Hy. unfold agree, goes_on. rewrite <- Hx, <- Hy.
  destruct (Qeq_bool x 0) eqn:E0.
  - apply Qeq_bool_iff in E0. rewrite negb_false_iff. split; intro H.
    + apply Qeq_bool_iff in H. rewrite E0, H. cbn. lra.
    + apply Qeq_bool_iff. rewrite E0 in H. cbn [Qabs] in H.
      assert (E : (0 - y == - y)%Q) by ring. rewrite E, Qabs_opp in H.
      assert (E2 : (e * Qabs 0 == 0)%Q) by (change (Qabs 0) with 0%Q; ring). rewrite E2 in H.
      pose proof (Qabs_nonneg y). apply Qle_antisym; [pose proof (Qle_Qabs y); lra|].
      pose proof (Qle_Qabs (- y)). rewrite Qabs_opp in *. lra.
  - apply Qeq_bool_neq in E0. rewrite negb_false_iff.
    assert (P : (0 < Qabs x)%Q).
    { destruct (Qlt_le_dec 0 (Qabs x)) as [P|P]; [exact P|]. exfalso. apply E0.
      pose proof (Qle_Qabs x). pose proof (Qle_Qabs (- x)) as P2. rewrite Qabs_opp in P2. lra. }
    assert (E : (Qabs ((x - y) / x) == Qabs (x - y) / Qabs x)%Q).
    { unfold Qdiv. rewrite Qabs_Qmult. rewrite Qabs_Qinv. reflexivity. }
    split; intro H.
    + apply Qle_bool_iff in H. rewrite E in H. apply (Qmult_le_compat_r _ _ (Qabs x)) in H; [|lra].
      assert (E3 : (Qabs (x - y) / Qabs x * Qabs x == Qabs (x - y))%Q) by (field; lra). rewrite E3 in H. exact H.
    + apply Qle_bool_iff. rewrite E. apply Qle_shift_div_r; [exact P|exact H].
Qed.

Lemma rounds_step fuel n b oid : n < 15 -> row n b oid ->
  exists b' x, (x == romberg f x0 x1 (S n) (S n))%Q /\ row (S n) b' (oid + S n) /\
  ((agree f x0 x1 e (S n) /\ rounds f x0 x1 e (S fuel) n b oid = Ok x) \/
   (~ agree f x0 x1 e (S n) /\ rounds f x0 x1 e (S fuel) n b oid = rounds f x0 x1 e fuel (S n) b' (oid + S n))).
Proof.
  intros Hn Hr. destruct (round_ok n b oid Hn Hr) as (r & E & R). exists (b ++ r).
  pose proof R as [L Rm]. destruct (Rm (S n) (Nat.le_refl _)) as (x & Ex & Hx).
  destruct (Rm n ltac:(lia)) as (y & Ey & Hy). exists x. split; [exact Hx|]. split; [exact R|].
  cbn [rounds]. rewrite E. cbn [Base.obind]. unfold back.
  rewrite (proj2 (oget_Ok Q (b ++ r) (length (b ++ r) - 1) x))
    by (rewrite L; replace (oid + S n + S n + 1 - 1) with (oid + S n + S n) by lia; exact Ex).
  cbn [Base.obind].
  rewrite (proj2 (oget_Ok Q (b ++ r) (length (b ++ r) - 2) y))
    by (rewrite L; replace (oid + S n + S n + 1 - 2) with (oid + S n + n) by lia; exact Ey).
  cbn [Base.obind].
  assert (G : goes_on x y e = false <-> agree f x0 x1 e (S n))
    by (apply goes_on_spec; [exact Hx|replace (S n - 1) with n by lia; exact Hy]).
  destruct (goes_on x y e).
  - right. split; [intro A; apply G in A; discriminate|reflexivity].
  - left. split; [apply G; reflexivity|reflexivity].
Qed.

(* stopping at the first round whose last two values agree *)
Lemma rounds_stop k : forall fuel n b oid, k < fuel -> n + S k <= 15 -> row n b oid ->
  (forall j, n < j -> j < n + S k -> ~ agree f x0 x1 e j) -> agree f x0 x1 e (n + S k) ->
  exists r, rounds f x0 x1 e fuel n b oid = Ok r /\ (r == romberg f x0 x1 (n + S k) (n + S k))%Q.
Proof.
  induction k as [|k IH]; intros fuel n b oid Hf' Hn Hr Hno Hag; (destruct fuel as [|fuel]; [lia|]);
    destruct (rounds_step fuel n b oid ltac:(lia) Hr) as (b' & x & Hx & Hr' & [[A E]|[A E]]).
  - exists x. replace (n + 1) with (S n) by lia. split; assumption.
  - exfalso. apply A. replace (S n) with (n + 1) by lia. exact Hag.
  - exfalso. apply (Hno (S n)); [lia|lia|exact A].
  - rewrite E. replace (n + S (S k)) with (S n + S k) in * by lia. apply (IH fuel (S n) b'); try assumption; try lia.
    intros j H1 H2. apply Hno; lia.
Qed.

Lemma rounds_ub k : forall fuel n b oid, k < fuel -> n + k = 15 -> row n b oid ->
  (forall j, n < j -> j <= 15 -> ~ agree f x0 x1 e j) -> rounds f x0 x1 e fuel n b oid = UB.
Proof.
  induction k as [|k IH]; intros fuel n b oid Hf' Hn Hr Hno; (destruct fuel as [|fuel]; [lia|]).
  - cbn [rounds]. rewrite (round_ub n b oid); [reflexivity|lia|exact Hr].
  - destruct (rounds_step fuel n b oid ltac:(lia) Hr) as (b' & x & Hx & Hr' & [[A E]|[A E]]).
    + exfalso. apply (Hno (S n)); [lia|lia|exact A].
    + rewrite E. apply (IH fuel (S n) b'); try assumption; try lia. intros j H1 H2. apply Hno; lia.
Qed.

Lemma row_start : row 0 [((1 # 2) * (x1 - x0) * (f x0 + f x1))%Q] 0.
Proof.
  split; [reflexivity|]. intros m Hm. replace m with 0 by lia. eexists. split; [reflexivity|].
  cbn [romberg]. unfold trapezium. cbn [Nat.pow Nat.sub sumf]. change (qn 1) with 1%Q. field.
Qed.

Lemma agree_dec n : agree f x0 x1 e n \/ ~ agree f x0 x1 e n.
Proof. unfold agree. destruct (Qlt_le_dec (e * Qabs (romberg f x0 x1 n n)) (Qabs (romberg f x0 x1 n n - romberg f x0 x1 n (n - 1)))) as [H|H]; [right; lra|left; exact H]. Qed.

(* either no round agrees, or there is a first one *)
Lemma first_agree k : (forall j, 1 <= j -> j <= k -> ~ agree f x0 x1 e j) \/
  exists n, 1 <= n <= k /\ agree f x0 x1 e n /\ forall j, 1 <= j -> j < n -> ~ agree f x0 x1 e j.
Proof.
  induction k as [|k [IH|(n & H1 & H2 & H3)]].
  - left. intros j A B. lia.
  - destruct (agree_dec (S k)) as [A|A].
    + right. exists (S k). split; [lia|]. split; [exact A|]. intros j B C. apply IH; lia.
    + left. intros j B C. destruct (Nat.eq_dec j (S k)) as [->|]; [exact A|apply IH; lia].
  - right. exists n. split; [lia|]. split; assumption.
Qed.

Lemma integrate_stop n : 1 <= n <= 15 -> agree f x0 x1 e n -> (forall j, 1 <= j -> j < n -> ~ agree f x0 x1 e j) ->
  exists r, integrate_func f x0 x1 e = Ok r /\ (r == romberg f x0 x1 n n)%Q.
Proof.
  intros Hn A H. destruct n as [|n]; [lia|]. unfold integrate_func.
  apply (rounds_stop n 31 0 _ 0); [lia|lia|exact row_start| |exact A].
  intros j B C. apply H; lia.
Qed.
Lemma integrate_ub : (forall n, 1 <= n -> n <= 15 -> ~ agree f x0 x1 e n) -> integrate_func f x0 x1 e = UB.
Proof.
  intro H. unfold integrate_func. apply (rounds_ub 15 31 0 _ 0); [lia|lia|exact row_start|].
  intros j B C. apply H; lia.
Qed.
Lemma integrate_cases :
  ((forall n, 1 <= n -> n <= 15 -> ~ agree f x0 x1 e n) /\ integrate_func f x0 x1 e = UB) \/
  exists n r, 1 <= n <= 15 /\ agree f x0 x1 e n /\ (forall j, 1 <= j -> j < n -> ~ agree f x0 x1 e j) /\
    integrate_func f x0 x1 e = Ok r /\ (r == romberg f x0 x1 n n)%Q.
Proof.
  destruct (first_agree 15) as [H|(n & H1 & H2 & H3)].
  - left. split; [exact H|apply integrate_ub; exact H].
  - right. destruct (integrate_stop n H1 H2 H3) as (r & E & R). exists n, r. auto.
Qed.
End F.
