(* Rounding and the cutout of one source. *)
From Coq Require Import QArith Qround Lqa Qabs.
From Verif Require Import Base GenModel QstackModel QstackSpec.
Local Open Scope Z_scope.

Lemma Qceil_lt x : (inject_Z (Qceiling x) < x + 1)%Q.
Proof. unfold Qceiling. rewrite inject_Z_opp. pose proof (Qlt_floor (- x)) as H. rewrite inject_Z_plus in H. change (inject_Z 1) with 1%Q in H. lra. Qed.
Lemma inject_lt a b : (inject_Z a < inject_Z b)%Q -> a < b.
Proof. rewrite <- Zlt_Qlt. auto. Qed.
(* an integer in [x-1/2, x+1/2], on the side away from 0 at the ends *)
Lemma qround_bounds x : (x - (1 # 2) <= inject_Z (qround x) <= x + (1 # 2))%Q /\
  (inject_Z (qround x) == x - (1 # 2) -> x < 0)%Q /\ (inject_Z (qround x) == x + (1 # 2) -> 0 <= x)%Q.
Proof.
  unfold qround. destruct (Qle_bool 0 x) eqn:E.
  - apply Qle_bool_iff in E. pose proof (Qfloor_le (x + (1 # 2))). pose proof (Qlt_floor (x + (1 # 2))) as H0.
    rewrite inject_Z_plus in H0. change (inject_Z 1) with 1%Q in H0. split; [split; lra|]. split; intros; lra.
  - assert (x < 0)%Q. { apply Qnot_le_lt. intros H. apply Qle_bool_iff in H. congruence. }
    pose proof (Qle_ceiling (x - (1 # 2))). pose proof (Qceil_lt (x - (1 # 2))). split; [split; lra|]. split; intros; lra.
Qed.
Lemma qround_uniq x r : (x - (1 # 2) <= inject_Z r <= x + (1 # 2))%Q ->
  (inject_Z r == x - (1 # 2) -> x < 0)%Q -> (inject_Z r == x + (1 # 2) -> 0 <= x)%Q -> qround x = r.
Proof.
  intros [H1 H2] H3 H4. destruct (qround_bounds x) as ([B1 B2] & B3 & B4).
  assert (D : forall a b, (inject_Z a <= inject_Z b + 1)%Q -> ((inject_Z a == inject_Z b + 1)%Q -> False) -> a <= b).
  { intros a b H H'. assert (inject_Z a < inject_Z (b + 1))%Q.
    { rewrite inject_Z_plus. change (inject_Z 1) with 1%Q. destruct (Qlt_le_dec (inject_Z a) (inject_Z b + 1)); [assumption|]. exfalso. apply H'. lra. }
    apply inject_lt in H0. lia. }
  assert (qround x <= r). { apply D; [lra|]. intros. assert (0 <= x)%Q by (apply B4; lra). assert (x < 0)%Q by (apply H3; lra). lra. }
  assert (r <= qround x). { apply D; [lra|]. intros. assert (0 <= x)%Q by (apply H4; lra). assert (x < 0)%Q by (apply B3; lra). lra. }
  lia.
Qed.
Lemma closest_iff x c : closest_integer x c <-> c = qround x.
Proof.
  assert (A : forall a b : Q, (Qabs a <= b <-> - b <= a <= b)%Q) by (intros; apply Qabs_Qle_condition).
  split.
  - intros [H1 H2]. apply A in H1. symmetry. apply qround_uniq; [lra| |]; intros E.
    + assert (Hh : (Qabs (x - inject_Z c) == 1 # 2)%Q).
      { setoid_replace (x - inject_Z c)%Q with (1 # 2)%Q by lra. reflexivity. }
      specialize (H2 Hh). destruct (Qlt_le_dec x 0) as [|N]; [assumption|]. exfalso.
      rewrite (Qabs_pos x N) in H2. destruct (Qlt_le_dec (inject_Z c) 0) as [L|L].
      * assert (c < 0). { apply inject_lt. exact L. } assert (inject_Z c <= inject_Z (-1))%Q by (rewrite <- Zle_Qle; lia).
        change (inject_Z (-1)) with (-1)%Q in *. lra.
      * rewrite (Qabs_pos _ L) in H2. lra.
    + assert (Hh : (Qabs (x - inject_Z c) == 1 # 2)%Q).
      { setoid_replace (x - inject_Z c)%Q with (- (1 # 2))%Q by lra. reflexivity. }
      specialize (H2 Hh). destruct (Qlt_le_dec x 0) as [N|]; [|assumption]. exfalso.
      rewrite (Qabs_neg x) in H2 by lra. destruct (Qlt_le_dec 0 (inject_Z c)) as [L|L].
      * assert (0 < c). { apply inject_lt. exact L. } assert (inject_Z 1 <= inject_Z c)%Q by (rewrite <- Zle_Qle; lia).
        change (inject_Z 1) with 1%Q in *. lra.
      * rewrite (Qabs_neg _ L) in H2. lra.
  - intros ->. destruct (qround_bounds x) as ([B1 B2] & B3 & B4). split; [apply A; lra|]. intros Hh.
    destruct (Qlt_le_dec x 0) as [N|N].
    + rewrite (Qabs_neg x) by lra. assert (E : (inject_Z (qround x) == x - (1 # 2))%Q).
      { destruct (Qlt_le_dec (x - inject_Z (qround x)) 0) as [L|L].
        - rewrite Qabs_neg in Hh by lra. assert (0 <= x)%Q by (apply B4; lra). lra.
        - rewrite (Qabs_pos _ L) in Hh. lra. }
      rewrite Qabs_neg by lra. lra.
    + rewrite (Qabs_pos x) by lra. assert (E : (inject_Z (qround x) == x + (1 # 2))%Q).
      { destruct (Qlt_le_dec (x - inject_Z (qround x)) 0) as [L|L].
        - rewrite Qabs_neg in Hh by lra. lra.
        - rewrite (Qabs_pos _ L) in Hh. assert (x < 0)%Q by (apply B3; lra). lra. }
      rewrite Qabs_pos by lra. lra.
Qed.
(* shifting by an integer on the same side of 0, or away from half integers *)
Lemma qround_shift x k : (half_way x -> (0 < x /\ 0 < x + inject_Z k) \/ (x < 0 /\ x + inject_Z k < 0))%Q ->
  qround (x + inject_Z k) = qround x + k.
Proof.
  intros H. destruct (qround_bounds x) as ([B1 B2] & B3 & B4). apply qround_uniq; rewrite ?inject_Z_plus.
  - lra.
  - intros E. assert (E' : (inject_Z (qround x) == x - (1 # 2))%Q) by lra. specialize (B3 E').
    destruct H as [[H _]|[_ H]]; [|lra|exact H]. exists (qround x). lra.
  - intros E. assert (E' : (inject_Z (qround x) == x + (1 # 2))%Q) by lra. specialize (B4 E').
    destruct H as [[_ H]|[H _]]; [|lra|lra]. exists (qround x + (-1)). rewrite inject_Z_plus. change (inject_Z (-1)) with (-1)%Q. lra.
Qed.
Lemma regular_low h x : regular h x -> qround (x - inject_Z (Z.of_nat h)) = qround x - Z.of_nat h.
Proof.
  intros R. assert (Hh : (0 <= inject_Z (Z.of_nat h))%Q) by (change 0%Q with (inject_Z 0); rewrite <- Zle_Qle; lia).
  assert (E : (x - inject_Z (Z.of_nat h) = x + inject_Z (- Z.of_nat h))%Q) by (rewrite inject_Z_opp; reflexivity).
  rewrite E. rewrite qround_shift; [lia|]. intros Hw. rewrite inject_Z_opp. destruct (R Hw); [left|right]; split; lra.
Qed.
Lemma regular_high h x : regular h x -> qround (x + inject_Z (Z.of_nat h)) = qround x + Z.of_nat h.
Proof.
  intros R. assert (Hh : (0 <= inject_Z (Z.of_nat h))%Q) by (change 0%Q with (inject_Z 0); rewrite <- Zle_Qle; lia).
  rewrite qround_shift; [lia|]. intros Hw. destruct (R Hw); [left|right]; split; lra.
Qed.
Lemma moderate_range h x (k : Q) : moderate h x -> (- inject_Z (Z.of_nat h) <= k <= inject_Z (Z.of_nat h))%Q ->
  to_long (x + k) = Ok (qround (x + k)).
Proof.
  unfold moderate. intros M K. unfold to_long. destruct (qround_bounds (x + k)) as ([B1 B2] & _).
  assert (X : (- Qabs x <= x <= Qabs x)%Q) by (apply Qabs_Qle_condition; lra).
  assert (inject_Z (qround (x + k)) < inject_Z (2 ^ 62 + 1))%Q.
  { rewrite inject_Z_plus. change (inject_Z 1) with 1%Q. set (b := inject_Z (2 ^ 62)) in *. clearbody b. lra. }
  assert (inject_Z (- 2 ^ 62 - 1) < inject_Z (qround (x + k)))%Q.
  { change (- 2 ^ 62 - 1) with (- (2 ^ 62 + 1)). rewrite inject_Z_opp, inject_Z_plus. change (inject_Z 1) with 1%Q.
    set (b := inject_Z (2 ^ 62)) in *. clearbody b. lra. }
  apply inject_lt in H, H0. set (n := qround (x + k)) in *. clearbody n.
  destruct (Z.leb_spec (- 2 ^ 63) n); [|lia]. destruct (Z.ltb_spec n (2 ^ 63)); [|lia]. reflexivity.
Qed.
