(* C105: proofs about random integers and coins. *)
From Coq Require Import QArith Qround Qfield Lqa Lia.
From Verif Require Import Base RandintModel RandintSpec.
Local Open Scope nat_scope.

Lemma trunc_nonneg q : (0 <= q)%Q -> trunc q = Qfloor q.
Proof. destruct q as [a d]. intros H. unfold trunc, Qfloor. cbn [Qnum Qden]. apply Z.quot_div_nonneg; [unfold Qle in H; cbn in H; lia|lia]. Qed.
Lemma trunc_opp q : trunc (- q) = (- trunc q)%Z.
Proof. destruct q as [a d]. unfold trunc. cbn [Qopp Qnum Qden]. apply Z.quot_opp_l. lia. Qed.
Lemma trunc_comp a b : (a == b)%Q -> trunc a = trunc b.
Proof.
  intros H. destruct (Qlt_le_dec a 0) as [L|L].
  - rewrite <- (Qopp_involutive_eq a), <- (Qopp_involutive_eq b) || idtac.
    assert (E : trunc (- a) = trunc (- b)) by (rewrite !trunc_nonneg by lra; apply Qfloor_comp; lra). rewrite !trunc_opp in E. lia.
  - rewrite !trunc_nonneg by lra. apply Qfloor_comp. exact H.
Qed.
Lemma trunc_neg q : (q <= 0)%Q -> trunc q = Qceiling q.
Proof. intros H. unfold Qceiling. rewrite <- trunc_nonneg by lra. rewrite trunc_opp. lia. Qed.
Lemma trunc_mono a b : (a <= b)%Q -> (trunc a <= trunc b)%Z.
Proof.
  intros H. destruct (Qlt_le_dec b 0) as [L|L]; [rewrite !trunc_neg by lra; apply Qceiling_resp_le; exact H|]. rewrite (trunc_nonneg b L).
  destruct (Qlt_le_dec a 0) as [K|K]; [|rewrite trunc_nonneg by exact K; apply Qfloor_resp_le; exact H]. rewrite trunc_neg by lra.
  assert (Qceiling a <= 0)%Z by (change 0%Z with (Qceiling 0); apply Qceiling_resp_le; lra). assert (0 <= Qfloor b)%Z by (change 0%Z with (Qfloor 0); apply Qfloor_resp_le; exact L). lia.
Qed.
Lemma trunc_int z : trunc (inject_Z z) = z.
Proof. unfold trunc. cbn. apply Z.quot_1_r. Qed.

Lemma omapl_each {A B} (f : A -> outcome B) (R : A -> B -> Prop) : forall l, Forall (fun a => exists b, f a = Ok b /\ R a b) l -> exists r, omapl f l = Ok r /\ Forall2 R l r.
Proof. induction l as [|a l IH]; intros H; [exists []; split; [reflexivity|constructor]|]. inversion H as [|? ? (b & E & Rb) H']; subst. destruct (IH H') as (r & E2 & F). exists (b :: r). cbn [omapl]. rewrite E. cbn [obind]. rewrite E2. split; [reflexivity|constructor; assumption]. Qed.

Section Range.
Variables (rnd : Q -> Q) (t : itype) (mi ma : Z).
Hypothesis R : rounding rnd.
Hypothesis B : (imin t <= mi /\ mi <= ma /\ ma + 1 <= imax t /\ imin t <= 0 /\ ma + 1 - mi <= imax t)%Z.
Hypothesis S53 : (Z.abs mi <= 2 ^ 53 /\ Z.abs (ma + 1) <= 2 ^ 53 /\ ma + 1 - mi <= 2 ^ 53)%Z.
Lemma value_bounds u : (0 <= u)%Q -> (u < 1)%Q ->
  (inject_Z mi <= rnd (rnd (u * rnd (inject_Z (ma + 1 - mi))) + rnd (inject_Z mi)) /\ rnd (rnd (u * rnd (inject_Z (ma + 1 - mi))) + rnd (inject_Z mi)) <= inject_Z (ma + 1))%Q.
Proof.
  intros U0 U1. destruct R as [M I]. pose proof (I mi) as Im. pose proof (I (ma + 1 - mi)%Z) as In. pose proof (I (ma + 1)%Z) as Ia. pose proof (I 0%Z) as I0. specialize (Im ltac:(lia)). specialize (In ltac:(lia)). specialize (Ia ltac:(lia)). specialize (I0 ltac:(lia)).
  assert (N : (0 <= inject_Z (ma + 1 - mi))%Q) by (change 0%Q with (inject_Z 0); rewrite <- Zle_Qle; lia).
  assert (S : (inject_Z (ma + 1 - mi) + inject_Z mi == inject_Z (ma + 1))%Q) by (rewrite <- inject_Z_plus; replace (ma + 1 - mi + mi)%Z with (ma + 1)%Z by lia; reflexivity).
  change (inject_Z 0) with 0%Q in I0. set (n := inject_Z (ma + 1 - mi)) in *. clearbody n.
  assert (L1 : (0 <= rnd (u * rnd n))%Q) by (apply Qle_trans with (rnd 0); [rewrite I0; apply Qle_refl|]; apply M; rewrite In; nra).
  assert (L2 : (rnd (u * rnd n) <= n)%Q) by (apply Qle_trans with (rnd n); [|rewrite In; apply Qle_refl]; apply M; rewrite In; nra).
  split.
  - apply Qle_trans with (rnd (inject_Z mi)); [rewrite Im; apply Qle_refl|]. apply M. rewrite Im at 1. lra.
  - apply Qle_trans with (rnd (inject_Z (ma + 1))); [|rewrite Ia; apply Qle_refl]. apply M. rewrite Im. lra.
Qed.
Lemma arith_ok us : randomi rnd t mi ma us = omapl (randomi_one rnd t mi (ma + 1 - mi)) us.
Proof.
  unfold randomi, arith. assert (F1 : fits t (ma + 1) = true) by (unfold fits; destruct (Z.leb_spec (imin t) (ma + 1)); [|lia]; destruct (Z.leb_spec (ma + 1) (imax t)); [reflexivity|lia]). rewrite F1. cbn [obind].
  assert (F2 : fits t (ma + 1 - mi) = true) by (unfold fits; destruct (Z.leb_spec (imin t) (ma + 1 - mi)); [|lia]; destruct (Z.leb_spec (ma + 1 - mi) (imax t)); [reflexivity|lia]). rewrite F2. reflexivity.
Qed.
Lemma one_ok u : (0 <= u)%Q -> (u < 1)%Q -> exists x, randomi_one rnd t mi (ma + 1 - mi) u = Ok x /\ (mi <= x <= ma + 1)%Z /\ x = trunc (rnd (rnd (u * rnd (inject_Z (ma + 1 - mi))) + rnd (inject_Z mi)))%Q.
Proof.
  intros U0 U1. destruct (value_bounds u U0 U1) as [L H]. apply trunc_mono in L. apply trunc_mono in H. rewrite trunc_int in L, H. unfold randomi_one, to_int. set (x := trunc _) in *. clearbody x.
  exists x. unfold fits. destruct (Z.leb_spec (imin t) x); [|lia]. destruct (Z.leb_spec x (imax t)); [|lia]. cbn. repeat split; lia.
Qed.
Lemma range_ok us : Forall (fun u => (0 <= u)%Q /\ (u < 1)%Q) us -> exists l, randomi rnd t mi ma us = Ok l /\ length l = length us /\ Forall (fun x => (mi <= x <= ma + 1)%Z) l.
Proof.
  intros F. rewrite arith_ok. destruct (omapl_each (randomi_one rnd t mi (ma + 1 - mi)) (fun _ x => (mi <= x <= ma + 1)%Z) us) as (l & E & F2).
  { eapply Forall_impl; [|exact F]. cbn. intros u [U0 U1]. destruct (one_ok u U0 U1) as (x & E & B1 & _). eauto. }
  exists l. split; [exact E|]. clear - F2. induction F2; [split; [reflexivity|constructor]|]. destruct IHF2 as [A C]. split; [cbn; lia|constructor; assumption].
Qed.
End Range.

(* how many integers of an interval *)
Lemma count_below : forall n (z : Z), (0 <= z <= Z.of_nat n)%Z -> length (filter (fun k => (Z.of_nat k <? z)%Z) (seq 0 n)) = Z.to_nat z.
Proof.
  induction n as [|n IH]; intros z H; [cbn; lia|]. rewrite seq_S, filter_app, app_length. cbn [Nat.add filter].
  destruct (Z.ltb_spec (Z.of_nat n) z) as [K|K]; cbn [length].
  - assert (z = Z.of_nat (S n)) as -> by lia. rewrite (filter_ext_in _ (fun k => (Z.of_nat k <? Z.of_nat n)%Z)); [rewrite IH by lia; lia|]. intros a I. apply in_seq in I. destruct (Z.ltb_spec (Z.of_nat a) (Z.of_nat (S n))), (Z.ltb_spec (Z.of_nat a) (Z.of_nat n)); try reflexivity; lia.
  - rewrite IH by lia. lia.
Qed.
Lemma count_split {A} (p q r : A -> bool) : forall l, (forall a, In a l -> r a = p a && negb (q a) /\ (q a = true -> p a = true)) -> length (filter p l) = length (filter q l) + length (filter r l).
Proof.
  induction l as [|a l IH]; intros H; [reflexivity|]. specialize (IH (fun b I => H b (or_intror I))). destruct (H a (or_introl eq_refl)) as [E Q]. cbn [filter]. rewrite E. destruct (p a), (q a); cbn in *; try lia; try (specialize (Q eq_refl); discriminate).
Qed.
Lemma count_between n (a b : Z) : (0 <= a <= b)%Z -> (b <= Z.of_nat n)%Z -> length (filter (fun k => ((a <=? Z.of_nat k) && (Z.of_nat k <? b))%Z) (seq 0 n)) = Z.to_nat (b - a).
Proof.
  intros H K. pose proof (count_split (fun k => (Z.of_nat k <? b)%Z) (fun k => (Z.of_nat k <? a)%Z) (fun k => ((a <=? Z.of_nat k) && (Z.of_nat k <? b))%Z) (seq 0 n)) as E. rewrite (count_below n b), (count_below n a) in E by lia. rewrite (Z2Nat.inj_sub b a) by lia. cut (Z.to_nat b = Z.to_nat a + length (filter (fun k => ((a <=? Z.of_nat k) && (Z.of_nat k <? b))%Z) (seq 0 n))); [lia|]. apply E.
  intros k _. destruct (Z.leb_spec a (Z.of_nat k)), (Z.ltb_spec (Z.of_nat k) b), (Z.ltb_spec (Z.of_nat k) a); cbn; split; try reflexivity; try discriminate; lia.
Qed.
