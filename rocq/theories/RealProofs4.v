From Coq Require Import Ascii String QArith Qpower Qround Qabs Lqa.
From Verif Require Import Base StrModel StrSpec StrProofs StrProofs2 NumModel NumSpec NumProofs RealModel RealSpec RealProofs RealProofs2 RealProofs3.
Local Open Scope Z_scope.

Lemma positive_real : forall a u f, (0 < a)%Q -> sign_text u f -> real_number (u ++ positive_text a) (inject_Z f * value6 (rounded6 a)).
Proof.
  intros a u f H Sg. destruct (positive_number a H) as (m & w & p & k & E & M & P & V).
  exists [], u, f, m, w, p, k, []. rewrite E, !app_nil_r. split; auto. split; [intros ? []|]. split; [intros ? []|].
  split; auto. split; auto. split; auto. rewrite <- V. ring.
Qed.
Lemma significant_opp : forall n v, significant n v -> significant n (- v).
Proof. intros n v (k & j & K & E). exists (- k), j. split; [lia|]. rewrite E, inject_Z_opp. ring. Qed.
Lemma Qabs_flip : forall x y, (Qabs (- x - y) == Qabs (x - - y))%Q.
Proof. intros x y. rewrite <- (Qabs_opp (- x - y)). apply Qabs_wd. ring. Qed.
Lemma closest_opp : forall n x v, closest n (- x) v -> closest n x (- v).
Proof.
  intros n x v [A B]. split; [now apply significant_opp|]. intros w W. rewrite Qabs_flip. eapply Qle_trans; [apply (B (- w)%Q); now apply significant_opp|].
  rewrite <- (Qabs_opp (- w - - x)). setoid_replace (- (- w - - x))%Q with (w - x)%Q by ring. apply Qle_refl.
Qed.
Lemma to_string_number : forall x, exists v, real_number (real_to_string x) v /\ closest 6 x v /\ (Qabs (v - x) <= (1 # 200000) * Qabs x)%Q.
Proof.
  intros x. unfold real_to_string. destruct (Qeq_bool x 0) eqn:E0.
  - apply Qeq_bool_iff in E0. exists 0%Q. split; [|split].
    + exists [], [], 1, ["0"%char], 0%Q, [], 0, []. split; auto. split; [intros ? []|]. split; [intros ? []|]. split; [now left|].
      split; [|split; [now left|reflexivity]]. left. exists 0. split; [|reflexivity]. change 0 with (Z.of_nat 0). now constructor.
    + split; [exists 0, 0; split; [reflexivity|reflexivity]|]. intros w _. rewrite E0. change (Qabs (0 - 0)) with 0%Q. apply Qabs_nonneg.
    + rewrite E0. cbn. discriminate.
  - assert (Rel : forall a, (0 < a)%Q -> (Qabs (value6 (rounded6 a) - a) <= (1 # 200000) * a)%Q).
    { intros a H. eapply Qle_trans; [apply rounded6_error; auto|]. destruct (exponent10_spec a H) as [A _].
      replace (exponent10 a - 5) with (exponent10 a + (-5)) by lia. rewrite p10_plus. change (10 ^ (-5))%Q with (1 # 100000). set (y := (10 ^ exponent10 a)%Q) in *. clearbody y. lra. }
    destruct (Qle_bool 0 x) eqn:E1.
    + apply Qle_bool_iff in E1. assert (H : (0 < x)%Q).
      { apply Qle_lt_or_eq in E1. destruct E1 as [|E]; auto. exfalso. symmetry in E. apply Qeq_bool_iff in E. congruence. }
      exists (value6 (rounded6 x)). split; [|split].
      * pose proof (positive_real x [] 1 H ltac:(now left)) as (a & u & f & m & w & p & k & b & Q1 & Q2 & Q3 & Q4 & Q5 & Q6 & Q7).
        exists a, u, f, m, w, p, k, b. repeat split; auto. rewrite <- Q7. cbn [inject_Z]. ring.
      * now apply rounded6_closest.
      * rewrite (Qabs_pos x) by lra. auto.
    + assert (H : (0 < - x)%Q) by (apply Qnot_le_lt; intros C; assert (D : (0 <= x)%Q); [|apply Qle_bool_iff in D; congruence];
        apply Qnot_lt_le; intros D; apply Qeq_bool_neq in E0; apply E0; lra).
      exists (- value6 (rounded6 (- x)))%Q. split; [|split].
      * pose proof (positive_real (- x) ["-"%char] (-1) H ltac:(right; right; auto)) as (a & u & f & m & w & p & k & b & Q1 & Q2 & Q3 & Q4 & Q5 & Q6 & Q7).
        exists a, u, f, m, w, p, k, b. repeat split; auto.
      * apply closest_opp, rounded6_closest; auto.
      * rewrite (Qabs_neg x) by lra. specialize (Rel _ H). rewrite Qabs_flip. exact Rel.
Qed.
Lemma rounded6_plain : forall a, ((1 # 10000) <= a)%Q -> (a <= 999999)%Q -> -4 <= snd (rounded6 a) < 6.
Proof.
  intros a L U. assert (H : (0 < a)%Q) by lra. destruct (rounded6_val a H) as (V & M & S0). destruct (exponent10_spec a H) as [A B].
  assert (E : -4 <= exponent10 a <= 5).
  { split.
    - apply Z.lt_succ_r, p10_inj. change (10 ^ (-4))%Q with (1 # 10000). eapply Qle_lt_trans; eauto.
    - assert (exponent10 a < 6); [|lia]. apply p10_inj. change (10 ^ 6)%Q with 1000000%Q. lra. }
  destruct S0 as [->|[M1 E1]]; [lia|]. rewrite E1. split; [lia|]. destruct (Z.eq_dec (exponent10 a) 5) as [F|F]; [|lia].
  exfalso. pose proof (rounded6_error a H) as R. unfold value6 in R. rewrite M1, E1, F in R. change (10 ^ (5 - 5))%Q with 1%Q in R.
  change (10 ^ (5 + 1 - 5))%Q with 10%Q in R. change (inject_Z 100000) with 100000%Q in R. rewrite Qabs_pos in R; lra.
Qed.
Lemma plain_zero : plain_number ["0"%char] 0.
Proof. exists ["0"%char], 0. split; [change 0 with (Z.of_nat 0); now constructor|]. split; [now left|]. left. split; auto. reflexivity. Qed.
Lemma to_string_plain_real : forall x, (x == 0)%Q \/ ((1 # 10000) <= x)%Q /\ (x <= 999999)%Q ->
  exists v, plain_number (real_to_string x) v /\ closest 6 x v.
Proof.
  intros x [E|[L U]].
  - unfold real_to_string. rewrite (proj2 (Qeq_bool_iff x 0) E). exists 0%Q. split; [apply plain_zero|].
    split; [exists 0, 0; split; reflexivity|]. intros w _. rewrite E. change (Qabs (0 - 0)) with 0%Q. apply Qabs_nonneg.
  - assert (H : (0 < x)%Q) by lra. exists (value6 (rounded6 x)). split; [|now apply rounded6_closest].
    unfold real_to_string. destruct (Qeq_bool x 0) eqn:E0; [apply Qeq_bool_iff in E0; lra|].
    rewrite (proj2 (Qle_bool_iff 0 x)) by lra. apply positive_plain; auto. now apply rounded6_plain.
Qed.
(* every double is read back *)
Lemma value6_limit : forall a, (0 < a)%Q -> (a <= largest_double)%Q -> (value6 (rounded6 a) < double_limit)%Q.
Proof.
  intros a H U. destruct (rounded6_val a H) as (V & _ & _). rewrite V. clear V. destruct (exponent10_spec a H) as [A B].
  set (e := exponent10 a) in *. assert (E : e <= 308).
  { assert (e < 309); [|lia]. apply p10_inj. eapply Qle_lt_trans; [exact A|]. eapply Qle_lt_trans; [exact U|].
    unfold largest_double. rewrite p10_Z, <- Zlt_Qlt by lia. reflexivity. }
  set (x := (a * 10 ^ (5 - e))%Q). destruct (Z.eq_dec e 308) as [->|N].
  - assert (M : half_even x <= 179769).
    { pose proof (half_even_bounds x) as R. apply Qabs_Qle_condition in R. destruct R as [_ R].
      assert (X : (x < 179769 + (1 # 2))%Q).
      { unfold x. change (5 - 308) with (-(303)). rewrite Qpower_opp. fold (a / 10 ^ 303)%Q. apply Qlt_shift_div_r; [apply p10_pos|].
        eapply Qle_lt_trans; [exact U|]. unfold largest_double. rewrite p10_Z by lia. vm_compute. reflexivity. }
      assert (Y : (inject_Z (half_even x) < inject_Z 179770)%Q) by (change (inject_Z 179770) with 179770%Q; lra). rewrite <- Zlt_Qlt in Y. lia. }
    eapply Qle_lt_trans with (inject_Z 179769 * 10 ^ 303)%Q.
    + change (308 - 5) with 303. apply Qmult_le_compat_r; [now rewrite <- Zle_Qle|apply Qlt_le_weak, p10_pos].
    + rewrite p10_Z by lia. unfold double_limit. rewrite <- inject_Z_mult, <- Zlt_Qlt. vm_compute. reflexivity.
  - destruct (scale_bounds a H) as [_ S2]. fold e in S2. fold x in S2. cbv zeta in S2. fold x in S2. apply Qlt_le_weak, half_even_mono' in S2.
    eapply Qle_lt_trans with (inject_Z 1000000 * 10 ^ (e - 5))%Q.
    + apply Qmult_le_compat_r; [now rewrite <- Zle_Qle|apply Qlt_le_weak, p10_pos].
    + change (inject_Z 1000000) with (inject_Z (10 ^ 6)). rewrite <- p10_Z, <- p10_plus by lia.
      eapply Qle_lt_trans; [apply (p10_mono _ 308); lia|]. unfold double_limit. rewrite p10_Z, <- Zlt_Qlt by lia. reflexivity.
Qed.
Lemma value6_nonneg : forall a, (0 < a)%Q -> (0 <= value6 (rounded6 a))%Q.
Proof.
  intros a H. destruct (rounded6_val a H) as (_ & M & _). unfold value6. apply Qmult_le_0_compat; [|apply Qlt_le_weak, p10_pos].
  change 0%Q with (inject_Z 0). rewrite <- Zle_Qle. lia.
Qed.
Lemma read_back : forall x, (Qabs x <= largest_double)%Q -> exists q, real_from_string (real_to_string x) = Some (Num q) /\ closest 6 x q.
Proof.
  intros x U. unfold real_to_string. destruct (Qeq_bool x 0) eqn:E0.
  { exists 0%Q. split; [reflexivity|]. apply Qeq_bool_iff in E0. split; [exists 0, 0; split; reflexivity|]. intros w _. rewrite E0. change (Qabs (0 - 0)) with 0%Q. apply Qabs_nonneg. }
  apply Qeq_bool_neq in E0.
  assert (K : forall a u f, (0 < a)%Q -> (a <= largest_double)%Q -> sign_text u f ->
    exists q, real_from_string (u ++ positive_text a) = Some (Num q) /\ (q == inject_Z f * value6 (rounded6 a))%Q).
  { intros a u f H L Sg. apply read_number; [now apply positive_real|]. rewrite Qabs_Qmult.
    assert (F : (Qabs (inject_Z f) == 1)%Q) by (destruct Sg as [[_ ->]|[[_ ->]|[_ ->]]]; reflexivity). rewrite F, Qmult_1_l, Qabs_pos by now apply value6_nonneg.
    now apply value6_limit. }
  assert (W : forall v q, (q == v)%Q -> closest 6 x v -> closest 6 x q).
  { intros v q Eq [(k & j & A1 & A2) B]. split; [exists k, j; rewrite Eq; auto|]. intros w Hw. rewrite Eq. auto. }
  destruct (Qle_bool 0 x) eqn:E1.
  - apply Qle_bool_iff in E1. rewrite Qabs_pos in U by auto. assert (H : (0 < x)%Q) by (apply Qle_lt_or_eq in E1; destruct E1 as [|E]; auto; exfalso; apply E0; now symmetry).
    destruct (K x [] 1 H U ltac:(now left)) as (q & R & Q1). exists q. split; auto. apply (W (value6 (rounded6 x))).
    + rewrite Q1. cbn [inject_Z]. ring.
    + now apply rounded6_closest.
  - assert (H : (x < 0)%Q) by (apply Qnot_le_lt; intros C; apply Qle_bool_iff in C; congruence). rewrite Qabs_neg in U by lra.
    destruct (K (- x)%Q ["-"%char] (-1) ltac:(lra) U ltac:(right; right; auto)) as (q & R & Q1). exists q. split; auto.
    apply (W (- value6 (rounded6 (- x)))%Q).
    + rewrite Q1. change (inject_Z (-1)) with (-(1))%Q. ring.
    + apply closest_opp, rounded6_closest. lra.
Qed.
