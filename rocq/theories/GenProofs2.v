From Coq Require Import QArith Qround Qabs Lqa Lia.
From Verif Require Import Base VecProofs GenModel GenSpec GenProofs.
Local Open Scope nat_scope.

Lemma steps_bounds : forall fl d s, (0 <= d)%Q -> (0 < s)%Q ->
  let st := steps_of fl d s in
  (0 <= st)%Z /\ (inject_Z st <= d / s + 1)%Q /\
  (if fl then (inject_Z st * s <= d + (1#2) * s)%Q /\ (d + (1#2) * s < (inject_Z st + 1) * s)%Q
   else (inject_Z st * s <= d)%Q /\ (d < (inject_Z st + 1) * s)%Q).
Proof.
  intros fl d s D S. pose proof (quot_ok d s D S) as P. cbv zeta.
  assert (E : (d == (d / s) * s)%Q) by (field; lra).
  set (q := (d / s)%Q) in *. unfold steps_of. fold q.
  destruct fl.
  - destruct (qround_ok q P) as [A [B C]]. split; [exact A|]. split; [lra|].
    set (r := inject_Z (qround q)) in *. rewrite E. 
    assert (X : (0 <= (q + (1#2) - r) * s)%Q) by (apply Qmult_le_0_compat; lra).
    assert (Y : (0 < (r + 1 - (q + (1#2))) * s)%Q) by (apply Qmult_lt_0_compat; lra).
    split; lra.
  - pose proof (Qfloor_le q) as B. pose proof (Qlt_floor q) as C.
    rewrite inject_Z_plus in C. change (inject_Z 1) with 1%Q in C.
    split. { assert ((-1 < Qfloor q)%Z); [|lia].
      apply inj_lt_inv. change (inject_Z (-1)) with (- (1))%Q. lra. }
    set (r := inject_Z (Qfloor q)) in *. split; [lra|].
    assert (X : (0 <= (q - r) * s)%Q) by (apply Qmult_le_0_compat; lra).
    assert (Y : (0 < (r + 1 - q) * s)%Q) by (apply Qmult_lt_0_compat; lra).
    split; lra.
Qed.

Lemma mod_eq : forall x y : Z, (0 <= x < two64)%Z -> (0 <= y < two64)%Z ->
  ((x - y) mod two64 = 0)%Z -> x = y.
Proof.
  intros x y X Y H. apply Z.mod_divide in H; [|discriminate]. destruct H as [k H].
  unfold two64 in *. lia.
Qed.

Lemma sub_zero : forall i j s, typed i -> typed j -> step_fits i j s ->
  exists d, s_sub i j = Ok d /\ ((to_double d == 0)%Q <-> (val i == val j)%Q).
Proof.
  intros i j s Ti Tj F.
  assert (W63 : (two63 + two63 = two64)%Z) by reflexivity.
  assert (W0 : (0 < two63)%Z) by reflexivity.
  assert (ZZ : forall x y, (inject_Z x == inject_Z y)%Q <-> x = y).
  { intros; split; [apply inject_Z_injective | now intros ->]. }
  destruct i as [i|i|i], j as [j|j|j]; unfold s_sub; cbn [kind_of common conv obind];
    cbn [typed step_fits] in *;
    try (eexists; split; [reflexivity|]; cbn [to_double val]; split; intro; lra).
  - rewrite signed_ok by lia. eexists; split; [reflexivity|]. cbn [to_double val].
    change 0%Q with (inject_Z 0). rewrite !ZZ. lia.
  - rewrite (wrap_id i), (wrap_id j) by lia.
    eexists; split; [reflexivity|]. cbn [to_double val].
    change 0%Q with (inject_Z 0). rewrite !ZZ. unfold wrap64.
    split; [intro H|intros ->; now rewrite Z.sub_diag].
    apply (mod_eq i j); lia.
  - rewrite (wrap_id i), (wrap_id j) by lia.
    eexists; split; [reflexivity|]. cbn [to_double val].
    change 0%Q with (inject_Z 0). rewrite !ZZ. unfold wrap64.
    split; [intro H|intros ->; now rewrite Z.sub_diag].
    apply (mod_eq i j); lia.
  - rewrite (wrap_id i), (wrap_id j) by lia.
    eexists; split; [reflexivity|]. cbn [to_double val].
    change 0%Q with (inject_Z 0). rewrite !ZZ. unfold wrap64.
    split; [intro H|intros ->; now rewrite Z.sub_diag].
    apply (mod_eq i j); lia.
Qed.

(* The whole function in terms of the number of steps. *)
Lemma step_core : forall i j s, typed i -> typed j -> typed s -> step_fits i j s -> (0 < val s)%Q ->
  (Qabs (val j - val i) / val s + 2 < inject_Z two64)%Q ->
  let st := steps_of (floating i j s) (Qabs (val j - val i)) (val s) in
  let n := Z.to_nat (st + 1) in
  let step := if Qle_bool (val j) (val i) then (val s * -1)%Q else val s in
  let ret := map (fun k => inject_Z (Z.of_nat k) * step + val i)%Q (seq 0 n) in
  (0 <= st)%Z /\
  rgen_step i j s =
    (if 1 <? n then oset ret (n - 1) (val j)
     else if Qeq_bool (val i) (val j) then Ok ret else Ok (ret ++ [val j])).
Proof.
  intros i j s Ti Tj Ts F S B st n step ret.
  destruct (steps_bounds (floating i j s) (Qabs (val j - val i)) (val s) (Qabs_nonneg _) S) as [P [Q _]].
  fold st in P, Q. split; [exact P|].
  unfold rgen_step. rewrite !val_double. rewrite (qle_false (val s) 0 S). cbn [negb check obind].
  destruct (step_conv i j s Ti Tj Ts F S) as [ci [cj [cs [E1 [E2 [E3 [V1 [V2 [Q1 Q2]]]]]]]]].
  rewrite E1. cbn [obind]. rewrite E2. cbn [obind]. rewrite E3. cbn [obind].
  assert (U : Qle_bool (to_double cj) (to_double ci) = Qle_bool (val j) (val i)).
  { now rewrite V1, V2. }
  rewrite U.
  assert (QQ : exists q, (if negb (Qle_bool (val j) (val i)) then step_quot cj ci cs else step_quot ci cj cs) = Ok q
     /\ qround q = st).
  { destruct (Qle_bool (val j) (val i)) eqn:L; cbn [negb].
    - apply Qle_bool_iff in L. destruct (Q2 L) as [q [X Y]]. exists q; split; [exact X|]. rewrite Y.
      unfold st, steps_of. assert (A : (Qabs (val j - val i) == val i - val j)%Q).
      { rewrite Qabs_neg; lra. }
      destruct (floating i j s); [apply qround_comp|apply Qfloor_comp]; now rewrite A.
    - assert (L' : (val i < val j)%Q).
      { destruct (Qlt_le_dec (val i) (val j)) as [X|X]; [exact X|]. apply qle_true in X. congruence. }
      destruct (Q1 (Qlt_le_weak _ _ L')) as [q [X Y]]. exists q; split; [exact X|]. rewrite Y.
      unfold st, steps_of. assert (A : (Qabs (val j - val i) == val j - val i)%Q).
      { rewrite Qabs_pos; lra. }
      destruct (floating i j s); [apply qround_comp|apply Qfloor_comp]; now rewrite A. }
  destruct QQ as [q [X Y]]. rewrite X. cbn [obind]. rewrite Y.
  assert (R : (st + 1 < two64)%Z).
  { apply inj_lt_inv. rewrite inject_Z_plus. change (inject_Z 1) with 1%Q. lra. }
  rewrite (proj2 (Z.leb_gt _ _) R). cbv zeta. fold n.
  assert (ST : (if negb (Qle_bool (val j) (val i)) then val s else (val s * -1)%Q) = step).
  { unfold step. now destruct (Qle_bool (val j) (val i)). }
  rewrite ST. fold ret.
  destruct (1 <? n); [reflexivity|].
  destruct (sub_zero i j s Ti Tj F) as [d [D Z]]. rewrite D. cbn [obind].
  replace (Qeq_bool (to_double d) 0) with (Qeq_bool (val i) (val j)); [reflexivity|].
  destruct (Qeq_bool (val i) (val j)) eqn:E; symmetry.
  - apply Qeq_bool_iff. apply Z. now apply Qeq_bool_iff.
  - destruct (Qeq_bool (to_double d) 0) eqn:E'; [|reflexivity].
    apply Qeq_bool_iff in E'. apply Z in E'. apply Qeq_bool_iff in E'. congruence.
Qed.

Lemma step_same : forall i j s, typed i -> typed j -> typed s -> step_fits i j s -> (0 < val s)%Q ->
  (val i == val j)%Q ->
  exists x, rgen_step i j s = Ok [x] /\ (x == val i)%Q.
Proof.
  intros i j s Ti Tj Ts F S E.
  assert (A : (Qabs (val j - val i) == 0)%Q). { rewrite Qabs_pos; lra. }
  assert (A2 : (Qabs (val j - val i) / val s == 0)%Q). { rewrite A. field. lra. }
  destruct (step_core i j s Ti Tj Ts F S) as [P R].
  { rewrite A2. change (0 + 2 < inject_Z two64)%Q. reflexivity. }
  assert (N : steps_of (floating i j s) (Qabs (val j - val i)) (val s) = 0%Z).
  { unfold steps_of. destruct (floating i j s).
    - rewrite (qround_comp _ _ A2). reflexivity.
    - rewrite (Qfloor_comp _ _ A2). reflexivity. }
  rewrite N in R. change (Z.to_nat (0 + 1)) with 1 in R. change (1 <? 1) with false in R. cbv iota in R.
  rewrite (proj2 (Qeq_bool_iff _ _) E) in R. cbn [seq map] in R.
  eexists; split; [exact R|]. change (inject_Z (Z.of_nat 0)) with 0%Q. lra.
Qed.

Lemma step_differ : forall i j s, typed i -> typed j -> typed s -> step_fits i j s -> (0 < val s)%Q ->
  ~ (val i == val j)%Q ->
  (Qabs (val j - val i) / val s + 2 < inject_Z two64)%Q ->
  let d := Qabs (val j - val i) in
  exists m l, rgen_step i j s = Ok l /\ stepped (val i) (val j) (val s) m l /\
    let gap := (d - inject_Z (Z.of_nat m) * val s)%Q in
    (0 < gap)%Q /\
    if floating i j s then (gap < (3#2) * val s)%Q /\ (0 < m -> ((1#2) * val s <= gap)%Q)
    else (gap < 2 * val s)%Q /\ (0 < m -> (val s <= gap)%Q).
Proof.
  intros i j s Ti Tj Ts F S E B d.
  destruct (step_core i j s Ti Tj Ts F S B) as [P R]. fold d in P, R.
  assert (D : (0 < d)%Q).
  { unfold d. destruct (Qlt_le_dec (val j) (val i)) as [X|X]; [rewrite Qabs_neg|rewrite Qabs_pos]; lra. }
  destruct (steps_bounds (floating i j s) d (val s) (Qlt_le_weak _ _ D) S) as [_ [_ G]].
  set (st := steps_of (floating i j s) d (val s)) in *.
  set (step := if Qle_bool (val j) (val i) then (val s * -1)%Q else val s) in *.
  assert (ST : step = (val s * -1)%Q /\ Qle_bool (val i) (val j) = false \/
               step = val s /\ Qle_bool (val i) (val j) = true).
  { unfold step. destruct (Qlt_le_dec (val j) (val i)) as [X|X].
    - left. rewrite (qle_true (val j)) by lra. now rewrite qle_false.
    - right. rewrite (qle_true (val i)) by lra. rewrite qle_false; [easy|].
      destruct (Qlt_le_dec (val i) (val j)) as [Y|Y]; [lra|]. exfalso; apply E; lra. }
  assert (STE : forall x, (x * step + val i == val i + x * (if Qle_bool (val i) (val j) then val s else - val s))%Q).
  { intro x. destruct ST as [[-> ->]|[-> ->]]; ring. }
  exists (Z.to_nat (Z.max st 1 - 1)).
  destruct (Z.eq_dec st 0) as [Z0|Z0].
  - rewrite Z0 in *. change (Z.to_nat (0 + 1)) with 1 in R. change (1 <? 1) with false in R. cbv iota in R.
    replace (Qeq_bool (val i) (val j)) with false in R.
    2:{ destruct (Qeq_bool (val i) (val j)) eqn:X; [|reflexivity]. apply Qeq_bool_iff in X. contradiction. }
    eexists; split; [exact R|]. change (Z.to_nat (Z.max 0 1 - 1)) with 0. split; [split|].
    + reflexivity.
    + split.
      * intros k K. replace k with 0 by lia. eexists; split; [reflexivity|]. apply STE.
      * eexists; split; reflexivity.
    + change (inject_Z (Z.of_nat 0)) with 0%Q. change (inject_Z 0) with 0%Q in G. cbv zeta. split; [lra|].
      destruct (floating i j s); (split; [lra|lia]).
  - set (m := Z.to_nat (Z.max st 1 - 1)).
    assert (M : Z.to_nat (st + 1) = m + 2) by lia. rewrite M in R.
    rewrite (proj2 (Nat.ltb_lt 1 (m + 2))) in R by lia.
    set (ret := map _ (seq 0 (m + 2))) in R.
    assert (LR : length ret = m + 2). { unfold ret. now rewrite map_length, seq_length. }
    unfold oset in R. rewrite (proj2 (Nat.ltb_lt _ _)) in R by lia.
    eexists; split; [exact R|]. split; [split|].
    + now rewrite upd_length.
    + split.
      * intros k K. rewrite nth_error_upd. replace (k =? m + 2 - 1) with false by (symmetry; apply Nat.eqb_neq; lia).
        cbn [andb]. eexists; split.
        { unfold ret. apply map_nth_error. rewrite nth_error_seq.
          rewrite (proj2 (Nat.ltb_lt _ _)) by lia. reflexivity. }
        cbn [plus]. apply STE.
      * exists (val j). split; [|reflexivity]. rewrite nth_error_upd.
        replace (m + 1 =? m + 2 - 1) with true by (symmetry; apply Nat.eqb_eq; lia).
        rewrite (proj2 (Nat.ltb_lt _ _)) by lia. reflexivity.
    + assert (MS : (inject_Z st == inject_Z (Z.of_nat m) + 1)%Q).
      { replace st with (Z.of_nat m + 1)%Z by lia. rewrite inject_Z_plus. reflexivity. }
      cbv zeta. destruct (floating i j s); destruct G as [G1 G2]; rewrite MS in G1, G2; repeat split; lra.
Qed.

(* clamp *)
Lemma s_lt_ok : forall a b, (kind_of a = KF \/ kind_of b = KF \/ kind_of a = kind_of b) -> typed a -> typed b ->
  exists r, s_lt a b = Ok r /\ (r = true <-> (val a < val b)%Q).
Proof.
  intros a b K Ta Tb.
  assert (L : forall p q, negb (Qle_bool q p) = true <-> (p < q)%Q).
  { intros p q. destruct (Qlt_le_dec p q) as [X|X].
    - rewrite (qle_false q p X). cbn. tauto.
    - rewrite (qle_true q p X). cbn. split; [discriminate|intro; lra]. }
  destruct a as [a|a|a], b as [b|b|b]; cbn [kind_of] in K;
    try (exfalso; destruct K as [K|[K|K]]; discriminate K);
    unfold s_lt; cbn [kind_of common conv obind]; cbn [typed] in *; rewrite ?wrap_id by assumption;
    eexists; (split; [reflexivity|]); apply L.
Qed.

Lemma conv_same : forall a, typed a -> conv (kind_of a) a = Ok a.
Proof. destruct a; intro T; cbn [kind_of conv typed] in *; rewrite ?wrap_id by exact T; reflexivity. Qed.

Lemma conv_KF : forall a, conv KF a = Ok (SF (val a)).
Proof. destruct a; reflexivity. Qed.

Lemma clamp_ok : forall t mi ma, typed t -> typed mi -> typed ma ->
  kind_of t = KF \/ same_kind t mi ma ->
  exists r, clamp t mi ma = Ok r /\ kind_of r = kind_of t /\ clamped t mi ma r.
Proof.
  intros t mi ma T1 T2 T3 K.
  destruct (s_lt_ok t mi) as [b1 [B1 H1]]; [destruct K as [K|[K _]]; auto|assumption..|].
  destruct (s_lt_ok ma t) as [b2 [B2 H2]]; [destruct K as [K|[K K']]; [auto|right; right; congruence]|assumption..|].
  unfold clamp. rewrite B1. cbn [obind]. 
  destruct K as [K|[K K']].
  - rewrite K. assert (C1 : forall a, common a KF = KF) by (destruct a; reflexivity). rewrite !C1.
    destruct b1.
    + rewrite conv_KF. cbn [obind conv]. eexists; split; [reflexivity|]. split; [reflexivity|].
      unfold clamped. cbn [val]. pose proof (proj1 H1 eq_refl). repeat split; intros; try reflexivity; tauto.
    + rewrite B2. cbn [obind]. rewrite conv_KF. cbn [obind conv]. eexists; split; [reflexivity|].
      split; [reflexivity|]. unfold clamped. cbn [val].
      assert (~ (val t < val mi)%Q) by (intro X; apply H1 in X; discriminate).
      destruct b2.
      * pose proof (proj1 H2 eq_refl). repeat split; intros; try reflexivity; tauto.
      * assert (~ (val ma < val t)%Q) by (intro X; apply H2 in X; discriminate).
        repeat split; intros; try reflexivity; tauto.
  - rewrite <- K', <- K. assert (C : forall a, common a a = a) by (destruct a; reflexivity). rewrite !C.
    destruct b1.
    + rewrite K, conv_same by assumption. cbn [obind]. rewrite conv_same by assumption.
      eexists; split; [reflexivity|]. split; [reflexivity|].
      unfold clamped. pose proof (proj1 H1 eq_refl). repeat split; intros; try reflexivity; tauto.
    + rewrite B2. cbn [obind].
      assert (CS : forall x, kind_of x = kind_of t -> typed x ->
        (m <- conv (kind_of t) x ;; m <- conv (kind_of t) m ;; conv (kind_of t) m) = Ok x).
      { intros x KX TX. rewrite <- KX, conv_same by assumption. cbn [obind]. rewrite conv_same by assumption.
        cbn [obind]. now apply conv_same. }
      assert (~ (val t < val mi)%Q) by (intro X; apply H1 in X; discriminate).
      destruct b2.
      * rewrite CS by (congruence || assumption). eexists; split; [reflexivity|]. split; [congruence|].
        unfold clamped. pose proof (proj1 H2 eq_refl). repeat split; intros; try reflexivity; tauto.
      * rewrite CS by (congruence || assumption). eexists; split; [reflexivity|]. split; [reflexivity|].
        assert (~ (val ma < val t)%Q) by (intro X; apply H2 in X; discriminate).
        unfold clamped. repeat split; intros; try reflexivity; tauto.
Qed.
