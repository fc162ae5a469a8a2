From Coq Require Import Ascii String QArith Qpower Qround Qabs Lqa.
From Verif Require Import Base StrModel StrSpec NumModel NumSpec NumProofs RealModel RealSpec.
Local Open Scope Z_scope.

(* --- powers of ten --------------------------------------------------------------- *)
Lemma ten_nz : ~ (10 == 0)%Q. Proof. discriminate. Qed.
Lemma p10_pos : forall k, (0 < 10 ^ k)%Q. Proof. intros. now apply Qpower_0_lt. Qed.
Lemma p10_nz : forall k, ~ (10 ^ k == 0)%Q. Proof. intros. apply Qpower_not_0, ten_nz. Qed.
Lemma p10_plus : forall a b, (10 ^ (a + b) == 10 ^ a * 10 ^ b)%Q.
Proof. intros. apply Qpower_plus, ten_nz. Qed.
Lemma p10_Z : forall n, 0 <= n -> (10 ^ n == inject_Z (10 ^ n))%Q.
Proof. intros. now rewrite Zpower_Qpower. Qed.
Lemma p10_mono : forall a b, a <= b -> (10 ^ a <= 10 ^ b)%Q.
Proof. intros. apply Qpower_le_compat_l; [auto|]. discriminate. Qed.
Lemma p10_cancel : forall k, (10 ^ k * 10 ^ (- k) == 1)%Q.
Proof. intros. rewrite <- p10_plus, Z.add_opp_diag_r. reflexivity. Qed.
Lemma p10_inj : forall a b, (10 ^ a < 10 ^ b)%Q -> a < b.
Proof. intros a b H. apply Qpower_lt_compat_l_inv in H; auto. reflexivity. Qed.

(* --- digits -------------------------------------------------------------------------- *)
Lemma value_app : forall a b, value (a ++ b) = value a * 10 ^ Z.of_nat (List.length b) + value b.
Proof.
  intros a b. induction b as [|c b IH] using rev_ind; [rewrite app_nil_r; unfold value at 3; cbn; lia|].
  rewrite app_assoc, !value_snoc, app_length, IH. cbn [List.length]. rewrite Nat.add_1_r, Nat2Z.inj_succ, Z.pow_succ_r by lia. lia.
Qed.
Lemma value_one : forall c, value [c] = digit_of c. Proof. reflexivity. Qed.
Lemma value_lt : forall d, all_digits d -> 0 <= value d < 10 ^ Z.of_nat (List.length d).
Proof.
  induction d as [|c d IH] using rev_ind; intros A; [unfold value; cbn; lia|]. rewrite value_snoc, app_length.
  assert (0 <= value d < 10 ^ Z.of_nat (List.length d)) by (apply IH; intros x I; apply A, in_or_app; now left).
  assert (0 <= digit_of c <= 9) by (apply digit_range, A, in_or_app; right; now left).
  cbn [List.length]. rewrite Nat.add_1_r, Nat2Z.inj_succ, Z.pow_succ_r by lia. lia.
Qed.
Lemma digit_zero : forall c, is_digit c = true -> digit_of c = 0 -> c = "0"%char.
Proof.
  intros c H E. apply digit_iff in H. destruct H as (k & F). rewrite (figure_digit _ _ F) in E.
  assert (k = 0%nat) by lia. subst k. now injection F.
Qed.
Lemma all_app : forall a b, all_digits (a ++ b) <-> all_digits a /\ all_digits b.
Proof.
  intros a b. split.
  - intros H. split; intros x I; apply H, in_or_app; auto.
  - intros [A B] x I. apply in_app_or in I. destruct I; auto.
Qed.
Lemma all_cons : forall c d, all_digits (c :: d) <-> is_digit c = true /\ all_digits d.
Proof.
  intros c d. split.
  - intros H. split; [apply H; now left|intros x I; apply H; now right].
  - intros [A B] x [<-|I]; auto.
Qed.
Lemma to_string_digits : forall x, 0 <= x -> to_string x <> [] /\ all_digits (to_string x) /\ value (to_string x) = x /\ shortest (to_string x).
Proof.
  intros x H. destruct (to_string_spec x) as (d & W & Sh & E). rewrite (proj2 (Z.ltb_ge x 0) H) in E. cbn [app] in E.
  rewrite Z.abs_eq in W by auto. apply writes_iff in W. rewrite E. intuition.
Qed.
Lemma ndigits_spec : forall n, 0 < n -> 10 ^ (ndigits n - 1) <= n < 10 ^ ndigits n.
Proof.
  intros n H. destruct (to_string_digits n) as (N & A & V & Sh); [lia|]. unfold ndigits.
  destruct Sh as [E|(c & r & E & Nc)]; rewrite E in *.
  - unfold value in V. cbn in V. lia.
  - pose proof (value_lt _ A) as B. rewrite V in B. split; [|lia].
    apply all_cons in A. destruct A as [Ac Ar]. change (c :: r) with ([c] ++ r) in V. rewrite value_app, value_one in V.
    pose proof (value_lt r Ar). pose proof (digit_range c Ac).
    assert (digit_of c <> 0) by (intros Z0; apply Nc, digit_zero; auto).
    cbn [List.length]. replace (Z.of_nat (S (List.length r)) - 1) with (Z.of_nat (List.length r)) by lia. nia.
Qed.

(* --- the exponent -------------------------------------------------------------------- *)
Lemma exponent10_spec : forall a, (0 < a)%Q -> (10 ^ exponent10 a <= a)%Q /\ (a < 10 ^ (exponent10 a + 1))%Q.
Proof.
  intros [n d] H. unfold exponent10. cbn [Qnum Qden]. cbv zeta.
  assert (Hn : 0 < n) by (unfold Qlt in H; cbn in H; lia).
  destruct (ndigits_spec n Hn) as [A1 A2]. destruct (ndigits_spec (Zpos d) ltac:(lia)) as [B1 B2].
  assert (Pn : 1 <= ndigits n) by (unfold ndigits; destruct (to_string_digits n) as (N & _); [lia|]; destruct (to_string n); [tauto|cbn; lia]).
  assert (Pd : 1 <= ndigits (Zpos d)) by (unfold ndigits; destruct (to_string_digits (Zpos d)) as (N & _); [lia|]; destruct (to_string (Zpos d)); [tauto|cbn; lia]).
  set (ln := ndigits n) in *. set (ld := ndigits (Zpos d)) in *. clearbody ln ld.
  assert (Ea : (n # d == inject_Z n / inject_Z (Zpos d))%Q).
  { unfold Qeq, Qdiv, Qmult, Qinv, inject_Z. cbn. ring. }
  assert (Dp : (0 < inject_Z (Zpos d))%Q) by reflexivity.
  assert (U : (n # d < 10 ^ (ln - ld + 1))%Q).
  { rewrite Ea. apply Qlt_shift_div_r; auto. apply Qlt_le_trans with (inject_Z (10 ^ ln)).
    - now rewrite <- Zlt_Qlt.
    - rewrite <- p10_Z by lia. apply Qle_trans with (10 ^ (ln - ld + 1) * inject_Z (10 ^ (ld - 1)))%Q.
      + rewrite <- p10_Z by lia. rewrite <- p10_plus. replace (ln - ld + 1 + (ld - 1)) with ln by lia. apply Qle_refl.
      + rewrite (Qmult_comm _ (inject_Z (10 ^ (ld - 1)))), (Qmult_comm _ (inject_Z (Zpos d))). apply Qmult_le_compat_r; [now rewrite <- Zle_Qle|].
        apply Qlt_le_weak, p10_pos. }
  assert (L : (10 ^ (ln - ld - 1) <= n # d)%Q).
  { rewrite Ea. apply Qle_shift_div_l; auto. apply Qle_trans with (inject_Z (10 ^ (ln - 1))).
    - rewrite <- p10_Z by lia. apply Qle_trans with (10 ^ (ln - ld - 1) * inject_Z (10 ^ ld))%Q.
      + rewrite (Qmult_comm _ (inject_Z (10 ^ ld))), (Qmult_comm _ (inject_Z (Zpos d))). apply Qmult_le_compat_r; [rewrite <- Zle_Qle; lia|].
        apply Qlt_le_weak, p10_pos.
      + rewrite <- p10_Z by lia. rewrite <- p10_plus. replace (ln - ld - 1 + ld) with (ln - 1) by lia. apply Qle_refl.
    - now rewrite <- Zle_Qle. }
  destruct (Qle_bool (10 ^ (ln - ld)) (n # d)) eqn:E.
  - apply Qle_bool_iff in E. auto.
  - split; auto. replace (ln - ld - 1 + 1) with (ln - ld) by lia. apply Qnot_le_lt. intros C. apply Qle_bool_iff in C. congruence.
Qed.

(* --- rounding -------------------------------------------------------------------------- *)
Lemma half_even_near : forall x k, (Qabs (inject_Z (half_even x) - x) <= Qabs (inject_Z k - x))%Q.
Proof.
  intros x k. unfold half_even. pose proof (Qfloor_le x) as A. pose proof (Qlt_floor x) as B. set (n := Qfloor x) in *. clearbody n.
  rewrite inject_Z_plus in B. change (inject_Z 1) with 1%Q in B.
  assert (K : (inject_Z k <= inject_Z n)%Q \/ (inject_Z n + 1 <= inject_Z k)%Q).
  { destruct (Z_le_gt_dec k n) as [L|G]; [left; now rewrite <- Zle_Qle|right].
    change 1%Q with (inject_Z 1). rewrite <- inject_Z_plus, <- Zle_Qle. lia. }
  assert (A1 : (inject_Z n - x <= 0)%Q) by lra.
  assert (H0 : (x - inject_Z n <= 1 # 2 -> Qabs (inject_Z n - x) <= Qabs (inject_Z k - x))%Q).
  { intros H. rewrite Qabs_neg by auto. destruct K as [K|K].
    - rewrite Qabs_neg; lra.
    - rewrite Qabs_pos; lra. }
  assert (H1 : (1 # 2 <= x - inject_Z n -> Qabs (inject_Z (n + 1) - x) <= Qabs (inject_Z k - x))%Q).
  { intros H. rewrite inject_Z_plus. change (inject_Z 1) with 1%Q. rewrite Qabs_pos by lra. destruct K as [K|K].
    - rewrite Qabs_neg; lra.
    - rewrite Qabs_pos; lra. }
  destruct (Qcompare_spec (x - inject_Z n) (1 # 2)) as [E|E|E].
  - destruct (Z.even n); [apply H0|apply H1]; rewrite E; apply Qle_refl.
  - apply H0. lra.
  - apply H1. lra.
Qed.
Lemma half_even_bounds : forall x, (Qabs (inject_Z (half_even x) - x) <= 1 # 2)%Q.
Proof.
  intros x. pose proof (Qfloor_le x). pose proof (Qlt_floor x) as B.
  pose proof (half_even_near x (Qfloor x)) as P. pose proof (half_even_near x (Qfloor x + 1)) as R.
  rewrite inject_Z_plus in *. change (inject_Z 1) with 1%Q in *. rewrite (Qabs_neg (inject_Z (Qfloor x) - x)) in P by lra.
  rewrite (Qabs_pos (inject_Z (Qfloor x) + 1 - x)) in R by lra. lra.
Qed.
Lemma half_even_mono : forall x k, (inject_Z k <= x)%Q -> k <= half_even x.
Proof.
  intros x k H. unfold half_even. assert (k <= Qfloor x) by (rewrite <- (Qfloor_Z k); now apply Qfloor_resp_le).
  destruct (_ ?= _)%Q; try destruct (Z.even _); lia.
Qed.
Lemma half_even_mono' : forall x k, (x <= inject_Z k)%Q -> half_even x <= k.
Proof.
  intros x k H. unfold half_even. pose proof (Qfloor_le x) as A.
  assert (F : Qfloor x <= k) by (rewrite <- (Qfloor_Z k); now apply Qfloor_resp_le).
  destruct (Z.eq_dec (Qfloor x) k) as [E|N]; [|destruct (_ ?= _)%Q; try destruct (Z.even _); lia].
  assert (X : (x - inject_Z (Qfloor x) < 1 # 2)%Q) by (rewrite E in *; lra).
  rewrite (proj1 (Qlt_alt _ _) X). lia.
Qed.

(* --- the six digits --------------------------------------------------------------------- *)
Definition value6 (p : Z * Z) : Q := (inject_Z (fst p) * 10 ^ (snd p - 5))%Q.
Lemma scale_bounds : forall a, (0 < a)%Q -> let e := exponent10 a in
  (inject_Z 100000 <= a * 10 ^ (5 - e))%Q /\ (a * 10 ^ (5 - e) < inject_Z 1000000)%Q.
Proof.
  intros a H e. destruct (exponent10_spec a H) as [A B]. fold e in A, B. split.
  - change (inject_Z 100000) with (inject_Z (10 ^ 5)). rewrite <- (p10_Z 5) by lia. apply Qle_trans with (10 ^ e * 10 ^ (5 - e))%Q.
    + rewrite <- p10_plus. replace (e + (5 - e)) with 5 by lia. apply Qle_refl.
    + apply Qmult_le_compat_r; auto. apply Qlt_le_weak, p10_pos.
  - change (inject_Z 1000000) with (inject_Z (10 ^ 6)). rewrite <- (p10_Z 6) by lia. apply Qlt_le_trans with (10 ^ (e + 1) * 10 ^ (5 - e))%Q.
    + apply Qmult_lt_r; auto. apply p10_pos.
    + rewrite <- p10_plus. replace (e + 1 + (5 - e)) with 6 by lia. apply Qle_refl.
Qed.
Lemma rounded6_val : forall a, (0 < a)%Q ->
  (value6 (rounded6 a) == inject_Z (half_even (a * 10 ^ (5 - exponent10 a))) * 10 ^ (exponent10 a - 5))%Q /\
  100000 <= fst (rounded6 a) < 1000000 /\ (snd (rounded6 a) = exponent10 a \/ (fst (rounded6 a) = 100000 /\ snd (rounded6 a) = exponent10 a + 1)).
Proof.
  intros a H. destruct (scale_bounds a H) as [A B]. unfold rounded6, value6. cbv zeta in *. set (e := exponent10 a) in *.
  apply half_even_mono in A. apply Qlt_le_weak, half_even_mono' in B. set (m := half_even _) in *. clearbody m.
  destruct (Z.eqb_spec m 1000000) as [E|N]; cbn [fst snd].
  - subst m. split; [|split; [lia|right; auto]].
    change (inject_Z 1000000) with (inject_Z (100000 * 10 ^ 1)). rewrite inject_Z_mult, <- (p10_Z 1) by lia.
    rewrite <- Qmult_assoc, <- p10_plus. replace (1 + (e - 5)) with (e + 1 - 5) by lia. reflexivity.
  - split; [reflexivity|]. split; [lia|auto].
Qed.
Lemma Qabs_scale : forall x y k, (Qabs (x * 10 ^ k - y * 10 ^ k) == Qabs (x - y) * 10 ^ k)%Q.
Proof.
  intros x y k. setoid_replace (x * 10 ^ k - y * 10 ^ k)%Q with ((x - y) * 10 ^ k)%Q by ring.
  rewrite Qabs_Qmult, (Qabs_pos (10 ^ k)); [reflexivity|]. apply Qlt_le_weak, p10_pos.
Qed.
Lemma rounded6_near : forall a k, (0 < a)%Q ->
  (Qabs (value6 (rounded6 a) - a) <= Qabs (inject_Z k * 10 ^ (exponent10 a - 5) - a))%Q.
Proof.
  intros a k H. destruct (rounded6_val a H) as [V _]. rewrite V. set (e := exponent10 a).
  assert (Ea : (a == (a * 10 ^ (5 - e)) * 10 ^ (e - 5))%Q).
  { rewrite <- Qmult_assoc, <- p10_plus. replace (5 - e + (e - 5)) with 0 by lia. cbn. ring. }
  set (x := (a * 10 ^ (5 - e))%Q) in *. rewrite Ea. rewrite !Qabs_scale.
  apply Qmult_le_compat_r; [apply half_even_near|apply Qlt_le_weak, p10_pos].
Qed.
Lemma rounded6_error : forall a, (0 < a)%Q -> (Qabs (value6 (rounded6 a) - a) <= (1 # 2) * 10 ^ (exponent10 a - 5))%Q.
Proof.
  intros a H. destruct (rounded6_val a H) as [V _]. rewrite V. set (e := exponent10 a).
  assert (Ea : (a == (a * 10 ^ (5 - e)) * 10 ^ (e - 5))%Q).
  { rewrite <- Qmult_assoc, <- p10_plus. replace (5 - e + (e - 5)) with 0 by lia. cbn. ring. }
  set (x := (a * 10 ^ (5 - e))%Q) in *. rewrite Ea. rewrite !Qabs_scale.
  apply Qmult_le_compat_r; [apply half_even_bounds|apply Qlt_le_weak, p10_pos].
Qed.
Lemma rounded6_closest : forall a, (0 < a)%Q -> closest 6 a (value6 (rounded6 a)).
Proof.
  intros a H. destruct (rounded6_val a H) as (V & R & _). split.
  - exists (fst (rounded6 a)), (snd (rounded6 a) - 5). split; [|reflexivity]. change (10 ^ 6) with 1000000. lia.
  - intros w (k & j & Hk & Ew). change (10 ^ 6) with 1000000 in Hk. rewrite Ew. clear w Ew.
    destruct (exponent10_spec a H) as [A B]. set (e := exponent10 a) in *.
    destruct (Z_le_gt_dec (e - 5) j) as [L|G].
    + (* on the grid *)
      replace j with ((j - (e - 5)) + (e - 5)) by lia.
      assert (X : (inject_Z k * 10 ^ (j - (e - 5) + (e - 5)) == inject_Z (k * 10 ^ (j - (e - 5))) * 10 ^ (e - 5))%Q).
      { rewrite p10_plus, inject_Z_mult, <- p10_Z by lia. ring. }
      rewrite X. apply rounded6_near; auto.
    + (* too small: 10^e is closer *)
      eapply Qle_trans; [apply (rounded6_near a 100000 H)|]. fold e.
      assert (T : (inject_Z 100000 * 10 ^ (e - 5) == 10 ^ e)%Q).
      { change (inject_Z 100000) with (inject_Z (10 ^ 5)). rewrite <- p10_Z, <- p10_plus by lia. replace (5 + (e - 5)) with e by lia. reflexivity. }
      rewrite T.
      assert (U : (inject_Z k * 10 ^ j <= 10 ^ e)%Q).
      { apply Qle_trans with (inject_Z 1000000 * 10 ^ j)%Q.
        - apply Qmult_le_compat_r; [rewrite <- Zle_Qle; lia|apply Qlt_le_weak, p10_pos].
        - change (inject_Z 1000000) with (inject_Z (10 ^ 6)). rewrite <- p10_Z, <- p10_plus by lia. apply p10_mono. lia. }
      rewrite !Qabs_neg by lra. lra.
Qed.
