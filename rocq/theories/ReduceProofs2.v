From Verif Require Import Base IndexProofs VecModel VecProofs VecProofs2
  OrderModel OrderSpec OrderProofs ReduceModel ReduceSpec ReduceProofs.
From Coq Require Import ZifyBool QArith Qround Lqa.
Local Open Scope nat_scope.

(* ---- order statistics ---- *)
Lemma filter_perm_len A (p : A -> bool) l1 l2 : Permutation l1 l2 ->
  length (filter p l1) = length (filter p l2).
Proof.
  intros H; induction H as [|x l1 l2 H IH|x y l|l1 l2 l3 H1 IH1 H2 IH2]; simpl; try congruence.
  - destruct (p x); simpl; congruence.
  - destruct (p x), (p y); reflexivity.
Qed.

Lemma filter_none A (p : A -> bool) l : (forall x, In x l -> p x = false) -> filter p l = [].
Proof.
  induction l as [|x l IH]; intros H; [reflexivity|]. cbn [filter]. rewrite (H x) by (left; reflexivity).
  apply IH. intros y Hy. apply H. right. exact Hy.
Qed.

Lemma filter_len_le A (p q : A -> bool) l : (forall x, In x l -> p x = true -> q x = true) ->
  length (filter p l) <= length (filter q l).
Proof.
  induction l as [|x l IH]; intros H; [simpl; lia|]. cbn [filter].
  assert (IH' : length (filter p l) <= length (filter q l)) by (apply IH; intros y Hy; apply H; right; exact Hy).
  pose proof (H x (or_introl eq_refl)) as Hx. destruct (p x); [rewrite Hx by reflexivity; simpl; lia|].
  destruct (q x); simpl; lia.
Qed.

Lemma filter_length_le A (p : A -> bool) l : length (filter p l) <= length l.
Proof. induction l as [|x l IH]; simpl; [lia|]. destruct (p x); simpl; lia. Qed.

Section Stat.
Context {A : Type} (lt : A -> A -> bool).
Hypothesis W : weak_order lt.

Lemma nth_element_stat v k : k < length v ->
  exists x, nth_element lt v k = Ok x /\ order_stat lt v k x.
Proof.
  intros Hk. pose proof (stable_sort_perm lt v) as P. pose proof (stable_sort_ascending _ lt v W) as O.
  unfold nth_element. destruct (oget_in _ (stable_sort lt v) k) as (x & E1 & E2).
  { rewrite (Permutation_length P). exact Hk. }
  exists x. split; [exact E1|]. split; [eapply Permutation_in; [exact P|]; eapply nth_error_In; exact E2|].
  rewrite <- !(filter_perm_len _ _ _ _ P). set (l := stable_sort lt v) in *. clearbody l.
  destruct (split_at _ _ _ _ E2) as [D LD]. 
  assert (B : forall y, In y (firstn k l) -> lt x y = false).
  { intros y Hy. apply In_nth_error in Hy as (i & Hi). assert (i < k).
    { rewrite <- LD. apply nth_error_Some. congruence. }
    apply (O i k y x); [assumption| |exact E2].
    rewrite D. rewrite nth_error_app1 by lia. exact Hi. }
  assert (C : forall y, In y (skipn (S k) l) -> lt y x = false).
  { intros y Hy. apply In_nth_error in Hy as (i & Hi). 
    apply (O k (S k + i) x y); [lia|exact E2|]. rewrite D. rewrite nth_error_app2 by lia. rewrite LD.
    replace (S k + i - k) with (S i) by lia. exact Hi. }
  rewrite D. rewrite !filter_app, !app_length. cbn [filter]. rewrite !(OrderProofs.lt_irrefl _ W). cbn [negb length].
  rewrite (filter_none _ (fun y => lt y x) _ C).
  rewrite (filter_all _ (fun y => negb (lt x y)) (firstn k l)) by (intros y Hy; rewrite (B y Hy); reflexivity).
  cbn [length]. pose proof (filter_length_le _ (fun y => lt y x) (firstn k l)). lia.
Qed.

Lemma order_stat_unique v k x y : order_stat lt v k x -> order_stat lt v k y -> OrderSpec.equiv lt x y.
Proof.
  intros (Ix & X1 & X2) (Iy & Y1 & Y2). split.
  - destruct (lt x y) eqn:E; [|reflexivity]. exfalso.
    assert (length (filter (fun z => negb (lt x z)) v) <= length (filter (fun z => lt z y) v)); [|lia].
    apply filter_len_le. intros z _ Hz. destruct (proj2 W x z y E) as [C|C]; [rewrite C in Hz; discriminate|exact C].
  - destruct (lt y x) eqn:E; [|reflexivity]. exfalso.
    assert (length (filter (fun z => negb (lt y z)) v) <= length (filter (fun z => lt z x) v)); [|lia].
    apply filter_len_le. intros z _ Hz. destruct (proj2 W y z x E) as [C|C]; [rewrite C in Hz; discriminate|exact C].
Qed.

Lemma median_plain_ok v : v <> [] -> exists x, median_plain lt v = Ok x /\ order_stat lt v (length v / 2) x.
Proof.
  intros H. unfold median_plain. destruct v as [|a v]; [congruence|]. change (length (a :: v) =? 0) with false. cbn [negb check obind].
  apply nth_element_stat. apply Nat.div_lt; simpl; lia.
Qed.
End Stat.

Lemma count_nans_numbers v : count_nans v + length (numbers v) = length v.
Proof.
  unfold count_nans.
  assert (H : forall v a, fold_left (fun n x => if is_nan x then n + 1 else n) v a + length (numbers v) = a + length v).
  { induction v0 as [|x v0 IH]; intros a; [simpl; lia|]. cbn [fold_left length]. unfold numbers. cbn [flat_map].
    fold (numbers v0). rewrite app_length. specialize (IH (if is_nan x then a + 1 else a)). destruct x; simpl in *; lia. }
  rewrite (H v 0). lia.
Qed.

Lemma filter_numbers (p : fnum -> bool) (q : Z -> bool) v : p NaN = false -> (forall z, p (Num z) = q z) ->
  length (filter p v) = length (filter q (numbers v)).
Proof.
  intros H1 H2. induction v as [|x v IH]; [reflexivity|]. unfold numbers. cbn [flat_map]. fold (numbers v).
  cbn [filter]. destruct x as [|z]; cbn [app filter]; [rewrite H1; exact IH|].
  rewrite H2. destruct (q z); simpl; congruence.
Qed.

Lemma in_numbers z v : In z (numbers v) <-> In (Num z) v.
Proof.
  unfold numbers. rewrite in_flat_map. split.
  - intros (x & Hx & Hz). destruct x; [destruct Hz|]. destruct Hz as [->|[]]. exact Hx.
  - intros H. exists (Num z). split; [exact H|left; reflexivity].
Qed.

Lemma fl_order : weak_order fl_less.
Proof.
  split.
  - intros [|x] [|y]; cbn; intros; try congruence; lia.
  - intros [|x] [|y] [|z]; cbn; intros; try congruence; auto. destruct (Z.ltb_spec x y); auto. right. lia.
Qed.

Lemma float_stat v k x : order_stat fl_less v k x -> k < length (numbers v) ->
  exists z, x = Num z /\ order_stat Z.ltb (numbers v) k z.
Proof.
  intros (I & H1 & H2) Hk. destruct x as [|z].
  - exfalso. rewrite (filter_numbers _ (fun _ => true)) in H1; [|reflexivity|intros; reflexivity].
    rewrite filter_all in H1 by (intros; reflexivity). lia.
  - exists z. split; [reflexivity|]. split; [apply in_numbers; exact I|].
    rewrite (filter_numbers _ (fun y => (y <? z)%Z)) in H1 by reflexivity.
    rewrite (filter_numbers _ (fun y => negb (z <? y)%Z)) in H2 by reflexivity. lia.
Qed.

Lemma float_stat_nan v k x : order_stat fl_less v k x -> length (numbers v) <= k -> x = NaN.
Proof.
  intros (I & H1 & H2) Hk. destruct x as [|z]; [reflexivity|]. exfalso.
  rewrite (filter_numbers _ (fun y => negb (z <? y)%Z)) in H2 by reflexivity.
  pose proof (filter_length_le _ (fun y => negb (z <? y)%Z) (numbers v)). lia.
Qed.

Lemma median_ok v : numbers v <> [] ->
  exists z, median v = Ok (Num z) /\ order_stat Z.ltb (numbers v) (length (numbers v) / 2) z.
Proof.
  intros H. pose proof (count_nans_numbers v) as C.
  assert (L : 0 < length (numbers v)) by (destruct (numbers v); [congruence|simpl; lia]).
  unfold median. replace (length v =? 0) with false by (symmetry; apply Nat.eqb_neq; lia). cbn [negb check obind].
  replace (count_nans v =? length v) with false by (symmetry; apply Nat.eqb_neq; lia).
  replace (length v - count_nans v) with (length (numbers v)) by lia.
  assert (D : length (numbers v) / 2 < length (numbers v)) by (apply Nat.div_lt; lia).
  destruct (nth_element_stat fl_less fl_order v (length (numbers v) / 2)) as (x & E & S); [lia|].
  destruct (float_stat v _ x S D) as (z & -> & Z0). exists z. auto.
Qed.

Lemma numbers_all_nan v : numbers v = [] -> all_nan v.
Proof.
  intros H x Hx. destruct x as [|z]; [reflexivity|]. apply in_numbers in Hx. rewrite H in Hx. destruct Hx.
Qed.

Lemma median_nan v : v <> [] -> numbers v = [] -> median v = Ok NaN.
Proof.
  intros Hv H. pose proof (count_nans_numbers v) as C. rewrite H in C. cbn [length] in C.
  unfold median. destruct v as [|a v]; [congruence|]. change (length (a :: v) =? 0) with false. cbn [negb check obind].
  replace (count_nans (a :: v) =? length (a :: v)) with true by (symmetry; apply Nat.eqb_eq; lia). reflexivity.
Qed.

(* ---- percentile ---- *)

Lemma Qle_bool_false a b : Qle_bool a b = false -> (b < a)%Q.
Proof.
  intros H. destruct (Qlt_le_dec b a) as [C|C]; [exact C|]. apply Qle_bool_iff in C. congruence.
Qed.

Lemma quot_floor t : (0 <= t)%Q -> Z.quot (Qnum t) (Zpos (Qden t)) = Qfloor t.
Proof.
  intros H. destruct t as [a b]. cbn [Qnum Qden]. unfold Qle in H. cbn in H. rewrite Z.mul_1_r in H.
  unfold Qfloor. rewrite Z.quot_div_nonneg by lia. reflexivity.
Qed.

Lemma floor_Z n : Qfloor (inject_Z n) = n.
Proof. apply Qfloor_Z. Qed.

Lemma clamp_index t ma : clamp_to_index t ma = Nat.min (Z.to_nat (Qfloor t)) ma.
Proof.
  unfold clamp_to_index. destruct (Qle_bool 0 t) eqn:E1; cbn [negb].
  - apply Qle_bool_iff in E1. destruct (Qle_bool t (inject_Z (Z.of_nat ma))) eqn:E2; cbn [negb].
    + apply Qle_bool_iff in E2. rewrite quot_floor by exact E1.
      apply Qfloor_resp_le in E2. rewrite floor_Z in E2. lia.
    + apply Qle_bool_false in E2. cbn [inject_Z Qnum Qden]. rewrite Z.quot_1_r.
      assert (Z.of_nat ma <= Qfloor t)%Z; [|lia]. rewrite <- (floor_Z (Z.of_nat ma)). apply Qfloor_resp_le. lra.
  - apply Qle_bool_false in E1. change (Z.quot (Qnum 0) (Z.pos (Qden 0))) with 0%Z.
    assert (Qfloor t < 0)%Z; [|lia].
    assert (inject_Z (Qfloor t) < inject_Z 0)%Q as X; [|rewrite <- Zlt_Qlt in X; exact X].
    pose proof (Qfloor_le t). change (inject_Z 0) with 0%Q. lra.
Qed.

Lemma floor_lt n u : 0 < n -> (u < 1)%Q -> Z.to_nat (Qfloor (inject_Z (Z.of_nat n) * u)) <= n - 1.
Proof.
  intros Hn Hu.
  assert (Qfloor (inject_Z (Z.of_nat n) * u) < Z.of_nat n)%Z; [|lia].
  rewrite Zlt_Qlt. apply Qle_lt_trans with (inject_Z (Z.of_nat n) * u)%Q; [apply Qfloor_le|].
  assert (0 < inject_Z (Z.of_nat n))%Q by (rewrite <- (Zlt_Qlt 0); lia).
  setoid_replace (inject_Z (Z.of_nat n)) with (inject_Z (Z.of_nat n) * 1)%Q at 2 by ring.
  apply Qmult_lt_l; assumption.
Qed.

Lemma percentile_unfold v u : numbers v <> [] ->
  percentile v u = nth_element fl_less v
    (Nat.min (Z.to_nat (Qfloor (inject_Z (Z.of_nat (length (numbers v))) * u))) (length v - 1)).
Proof.
  intros H. pose proof (count_nans_numbers v) as C.
  assert (L : 0 < length (numbers v)) by (destruct (numbers v); [congruence|simpl; lia]).
  unfold percentile. replace (length v =? 0) with false by (symmetry; apply Nat.eqb_neq; lia). cbn [negb check obind].
  replace (count_nans v =? length v) with false by (symmetry; apply Nat.eqb_neq; lia).
  replace (length v - count_nans v) with (length (numbers v)) by lia. rewrite clamp_index. reflexivity.
Qed.

Lemma percentile_ok v u : numbers v <> [] -> (u < 1)%Q \/ ~ In NaN v ->
  exists z, percentile v u = Ok (Num z) /\ order_stat Z.ltb (numbers v) (rank_of (length (numbers v)) u) z.
Proof.
  intros H Hu. pose proof (count_nans_numbers v) as C.
  assert (L : 0 < length (numbers v)) by (destruct (numbers v); [congruence|simpl; lia]).
  rewrite percentile_unfold by exact H.
  assert (E : Nat.min (Z.to_nat (Qfloor (inject_Z (Z.of_nat (length (numbers v))) * u))) (length v - 1) = rank_of (length (numbers v)) u).
  { unfold rank_of. destruct Hu as [Hu|Hu].
    - pose proof (floor_lt (length (numbers v)) u L Hu). lia.
    - assert (length v = length (numbers v)); [|congruence].
      clear - Hu. induction v as [|x v IH]; [reflexivity|]. unfold numbers. cbn [flat_map]. fold (numbers v).
      destruct x as [|z]; [exfalso; apply Hu; left; reflexivity|]. cbn. f_equal. apply IH. intro; apply Hu; right; assumption. }
  rewrite E. assert (R : rank_of (length (numbers v)) u < length (numbers v)) by (unfold rank_of; lia).
  destruct (nth_element_stat fl_less fl_order v (rank_of (length (numbers v)) u)) as (x & E1 & S); [lia|].
  destruct (float_stat v _ x S R) as (z & -> & Z0). exists z. auto.
Qed.

Lemma percentile_nan v u : numbers v <> [] -> (1 <= u)%Q -> In NaN v -> percentile v u = Ok NaN.
Proof.
  intros H Hu Hn. pose proof (count_nans_numbers v) as C.
  assert (L : 0 < length (numbers v)) by (destruct (numbers v); [congruence|simpl; lia]).
  assert (N1 : length (numbers v) < length v).
  { clear - Hn. induction v as [|x v IH]; [destruct Hn|]. unfold numbers. cbn [flat_map]. fold (numbers v).
    rewrite app_length. assert (length (numbers v) <= length v) by (pose proof (count_nans_numbers v); lia).
    destruct x as [|z]; [simpl; lia|]. destruct Hn as [Hn|Hn]; [discriminate|]. specialize (IH Hn). simpl. lia. }
  rewrite percentile_unfold by exact H.
  assert (K : length (numbers v) <= Z.to_nat (Qfloor (inject_Z (Z.of_nat (length (numbers v))) * u))).
  { assert (Z.of_nat (length (numbers v)) <= Qfloor (inject_Z (Z.of_nat (length (numbers v))) * u))%Z; [|lia].
    rewrite <- (floor_Z (Z.of_nat (length (numbers v)))) at 1. apply Qfloor_resp_le.
    assert (0 <= inject_Z (Z.of_nat (length (numbers v))))%Q by (rewrite <- (Zle_Qle 0); lia).
    rewrite <- (Qmult_1_r (inject_Z (Z.of_nat (length (numbers v))))) at 1. rewrite !(Qmult_comm (inject_Z _)).
    apply Qmult_le_compat_r; assumption. }
  destruct (nth_element_stat fl_less fl_order v (Nat.min (Z.to_nat (Qfloor (inject_Z (Z.of_nat (length (numbers v))) * u))) (length v - 1))) as (x & E1 & S); [lia|].
  rewrite E1. f_equal. eapply float_stat_nan; [exact S|]. lia.
Qed.

(* ---- minimum and maximum ---- *)
Section Min.
Context {A : Type} (lt : A -> A -> bool).
Hypothesis W : weak_order lt.

Lemma min_from_ok : forall rest done bi bx, nth_error done bi = Some bx ->
  (forall j y, nth_error done j = Some y -> lt y bx = false /\ (j < bi -> lt bx y = true)) ->
  let r := min_from lt bi bx (length done) rest in
  nth_error (done ++ rest) (fst r) = Some (snd r) /\
  forall j y, nth_error (done ++ rest) j = Some y -> lt y (snd r) = false /\ (j < fst r -> lt (snd r) y = true).
Proof.
  induction rest as [|x rest IH]; intros done bi bx H1 H2 r.
  - unfold r. cbn [min_from fst snd]. rewrite app_nil_r. auto.
  - unfold r. cbn [min_from]. replace (done ++ x :: rest) with ((done ++ [x]) ++ rest) by (rewrite <- app_assoc; reflexivity).
    replace (S (length done)) with (length (done ++ [x])) by (rewrite app_length; simpl; lia).
    assert (NX : nth_error (done ++ [x]) (length done) = Some x).
    { rewrite nth_error_app2 by lia. rewrite Nat.sub_diag. reflexivity. }
    assert (SP : forall j y, nth_error (done ++ [x]) j = Some y ->
      (j < length done /\ nth_error done j = Some y) \/ (j = length done /\ y = x)).
    { intros j y Hj. destruct (Nat.lt_ge_cases j (length done)) as [C|C].
      - left. rewrite nth_error_app1 in Hj by exact C. auto.
      - right. rewrite nth_error_app2 in Hj by exact C. destruct (j - length done) as [|k] eqn:Ek.
        + injection Hj as ->. split; [lia|reflexivity].
        + destruct k; discriminate. }
    destruct (lt x bx) eqn:E.
    + apply IH; [exact NX|]. intros j y Hj. destruct (SP j y Hj) as [[C D]|[C ->]].
      * destruct (H2 j y D) as [F1 F2]. split.
        -- destruct (lt y x) eqn:Eyx; [|reflexivity]. destruct (proj2 W y bx x Eyx) as [K|K]; [congruence|].
           rewrite (proj1 W _ _ K) in E. discriminate.
        -- intros _. destruct (proj2 W x y bx E) as [K|K]; [exact K|congruence].
      * split; [apply (OrderProofs.lt_irrefl _ W)|]. intros; lia.
    + apply IH.
      * rewrite nth_error_app1; [exact H1|]. apply nth_error_Some. congruence.
      * intros j y Hj. destruct (SP j y Hj) as [[C D]|[C ->]]; [exact (H2 j y D)|].
        split; [exact E|]. intros Hlt. assert (bi < length done) by (apply nth_error_Some; congruence). lia.
Qed.

Lemma min_ok v : v <> [] -> exists i x, min_ lt v = Ok (i, x) /\ nth_error v i = Some x /\
  forall j y, nth_error v j = Some y -> lt y x = false /\ (j < i -> lt x y = true).
Proof.
  intros H. destruct v as [|a v]; [congruence|]. cbn [min_].
  destruct (min_from lt 0 a 1 v) as [i x] eqn:E. exists i, x. split; [reflexivity|].
  pose proof (min_from_ok v [a] 0 a eq_refl) as K. cbn [length app] in K. rewrite E in K. cbn [fst snd] in K.
  apply K. intros [|j] y Hj; [|destruct j; discriminate]. injection Hj as <-. split; [apply (OrderProofs.lt_irrefl _ W)|lia].
Qed.
End Min.

Lemma fl_greater_order : weak_order fl_greater.
Proof.
  split.
  - intros [|x] [|y]; cbn; intros; try congruence; lia.
  - intros [|x] [|y] [|z]; cbn; intros; try congruence; auto. destruct (Z.ltb_spec y x); auto. right. lia.
Qed.

Lemma min_float v : v <> [] ->
  (numbers v = [] -> min_ fl_less v = Ok (0, NaN)) /\
  (numbers v <> [] -> exists i z, min_ fl_less v = Ok (i, Num z) /\ smallest_at v i z /\ first_at v i z).
Proof.
  intros H. destruct (min_ok fl_less fl_order v H) as (i & x & E & N & M). split; intros HN.
  - rewrite E. assert (x = NaN). { apply (numbers_all_nan v HN). eapply nth_error_In; exact N. } subst x.
    destruct i as [|i]; [reflexivity|]. destruct v as [|a v]; [congruence|].
    destruct (M 0 a eq_refl) as [_ C]. specialize (C ltac:(lia)). discriminate.
  - destruct (numbers v) as [|z0 l] eqn:EN; [congruence|].
    assert (In (Num z0) v) as I0 by (apply in_numbers; rewrite EN; left; reflexivity).
    apply In_nth_error in I0 as (j0 & J0). destruct x as [|z].
    { destruct (M j0 _ J0) as [C _]. discriminate. }
    exists i, z. split; [exact E|]. split.
    + split; [exact N|]. intros j y Hj. destruct (M j _ Hj) as [C _]. cbn in C. lia.
    + intros j Hj. destruct (Nat.lt_ge_cases j i) as [C|C]; [|exact C].
      destruct (M j _ Hj) as [_ D]. specialize (D C). cbn in D. lia.
Qed.

Lemma max_float v : v <> [] ->
  (numbers v = [] -> min_ fl_greater v = Ok (0, NaN)) /\
  (numbers v <> [] -> exists i z, min_ fl_greater v = Ok (i, Num z) /\ largest_at v i z /\ first_at v i z).
Proof.
  intros H. destruct (min_ok fl_greater fl_greater_order v H) as (i & x & E & N & M). split; intros HN.
  - rewrite E. assert (x = NaN). { apply (numbers_all_nan v HN). eapply nth_error_In; exact N. } subst x.
    destruct i as [|i]; [reflexivity|]. destruct v as [|a v]; [congruence|].
    destruct (M 0 a eq_refl) as [_ C]. specialize (C ltac:(lia)). discriminate.
  - destruct (numbers v) as [|z0 l] eqn:EN; [congruence|].
    assert (In (Num z0) v) as I0 by (apply in_numbers; rewrite EN; left; reflexivity).
    apply In_nth_error in I0 as (j0 & J0). destruct x as [|z].
    { destruct (M j0 _ J0) as [C _]. discriminate. }
    exists i, z. split; [exact E|]. split.
    + split; [exact N|]. intros j y Hj. destruct (M j _ Hj) as [C _]. cbn in C. lia.
    + intros j Hj. destruct (Nat.lt_ge_cases j i) as [C|C]; [|exact C].
      destruct (M j _ Hj) as [_ D]. specialize (D C). cbn in D. lia.
Qed.

Lemma minmax_from_ok : forall rest done mi mz ma az,
  smallest_at done mi mz -> first_at done mi mz -> largest_at done ma az -> last_at done ma az ->
  exists i z j y, minmax_from mi (Num mz) ma (Num az) (length done) rest = ((i, Num z), (j, Num y)) /\
    smallest_at (done ++ rest) i z /\ first_at (done ++ rest) i z /\
    largest_at (done ++ rest) j y /\ last_at (done ++ rest) j y.
Proof.
  induction rest as [|x rest IH]; intros done mi mz ma az S1 F1 L1 T1.
  - exists mi, mz, ma, az. rewrite app_nil_r. cbn [minmax_from]. auto.
  - replace (done ++ x :: rest) with ((done ++ [x]) ++ rest) by (rewrite <- app_assoc; reflexivity).
    assert (SP : forall j y, nth_error (done ++ [x]) j = Some y ->
      (j < length done /\ nth_error done j = Some y) \/ (j = length done /\ y = x)).
    { intros j y Hj. destruct (Nat.lt_ge_cases j (length done)) as [C|C].
      - left. rewrite nth_error_app1 in Hj by exact C. auto.
      - right. rewrite nth_error_app2 in Hj by exact C. destruct (j - length done) as [|k] eqn:Ek.
        + injection Hj as ->. split; [lia|reflexivity].
        + destruct k; discriminate. }
    assert (NX : nth_error (done ++ [x]) (length done) = Some x).
    { rewrite nth_error_app2 by lia. rewrite Nat.sub_diag. reflexivity. }
    destruct S1 as [S1 S2]. destruct L1 as [L1 L2].
    assert (B1 : mi < length done) by (apply nth_error_Some; congruence).
    assert (B2 : ma < length done) by (apply nth_error_Some; congruence).
    assert (K1 : nth_error (done ++ [x]) mi = Some (Num mz)) by (rewrite nth_error_app1 by exact B1; exact S1).
    assert (K2 : nth_error (done ++ [x]) ma = Some (Num az)) by (rewrite nth_error_app1 by exact B2; exact L1).
    assert (MA : (mz <= az)%Z) by (eapply S2; exact L1).
    cbn [minmax_from]. replace (S (length done)) with (length (done ++ [x])) by (rewrite app_length; simpl; lia).
    destruct x as [|x]; cbn [is_nan].
    + apply IH.
      * split; [exact K1|]. intros j y Hj. destruct (SP j _ Hj) as [[C D]|[C D]]; [eauto|discriminate].
      * intros j Hj. destruct (SP j _ Hj) as [[C D]|[C D]]; [eauto|discriminate].
      * split; [exact K2|]. intros j y Hj. destruct (SP j _ Hj) as [[C D]|[C D]]; [eauto|discriminate].
      * intros j Hj. destruct (SP j _ Hj) as [[C D]|[C D]]; [eauto|discriminate].
    + cbn [fl_lt]. destruct (Z.ltb_spec x mz) as [C1|C1].
      * apply IH.
        -- split; [exact NX|]. intros j y Hj. destruct (SP j _ Hj) as [[C D]|[C D]]; [specialize (S2 _ _ D); lia|].
           injection D as ->. lia.
        -- intros j Hj. destruct (SP j _ Hj) as [[C D]|[C D]]; [specialize (S2 _ _ D); lia|lia].
        -- split; [exact K2|]. intros j y Hj. destruct (SP j _ Hj) as [[C D]|[C D]]; [eauto|]. injection D as ->. lia.
        -- intros j Hj. destruct (SP j _ Hj) as [[C D]|[C D]]; [eauto|]. injection D as ->. lia.
      * destruct (Z.ltb_spec x az) as [C2|C2]; cbn [negb].
        -- apply IH.
           ++ split; [exact K1|]. intros j y Hj. destruct (SP j _ Hj) as [[C D]|[C D]]; [eauto|]. injection D as ->. lia.
           ++ intros j Hj. destruct (SP j _ Hj) as [[C D]|[C D]]; [eauto|]. lia.
           ++ split; [exact K2|]. intros j y Hj. destruct (SP j _ Hj) as [[C D]|[C D]]; [eauto|]. injection D as ->. lia.
           ++ intros j Hj. destruct (SP j _ Hj) as [[C D]|[C D]]; [eauto|]. injection D as ->. lia.
        -- apply IH.
           ++ split; [exact K1|]. intros j y Hj. destruct (SP j _ Hj) as [[C D]|[C D]]; [eauto|]. injection D as ->. lia.
           ++ intros j Hj. destruct (SP j _ Hj) as [[C D]|[C D]]; [eauto|]. lia.
           ++ split; [exact NX|]. intros j y Hj. destruct (SP j _ Hj) as [[C D]|[C D]]; [specialize (L2 _ _ D); lia|]. injection D as ->. lia.
           ++ intros j Hj. destruct (SP j _ Hj) as [[C D]|[C D]]; lia.
Qed.

Lemma minmax_skip_ok : forall rest done, all_nan done ->
  (numbers rest = [] /\ minmax_skip (length done) rest = None) \/
  exists i z j y, minmax_skip (length done) rest = Some ((i, Num z), (j, Num y)) /\
    smallest_at (done ++ rest) i z /\ first_at (done ++ rest) i z /\
    largest_at (done ++ rest) j y /\ last_at (done ++ rest) j y.
Proof.
  induction rest as [|x rest IH]; intros done Hd.
  - left. split; reflexivity.
  - replace (done ++ x :: rest) with ((done ++ [x]) ++ rest) by (rewrite <- app_assoc; reflexivity).
    assert (LL : S (length done) = length (done ++ [x])) by (rewrite app_length; simpl; lia).
    destruct x as [|z]; cbn [minmax_skip is_nan].
    + rewrite LL. destruct (IH (done ++ [NaN])) as [[H1 H2]|H].
      * intros y Hy. apply in_app_or in Hy as [Hy|[<-|[]]]; auto.
      * left. split; [|exact H2]. unfold numbers in *. cbn [flat_map app]. exact H1.
      * right. exact H.
    + right. rewrite LL.
      assert (NX : nth_error (done ++ [Num z]) (length done) = Some (Num z)).
      { rewrite nth_error_app2 by lia. rewrite Nat.sub_diag. reflexivity. }
      assert (SP : forall j y, nth_error (done ++ [Num z]) j = Some (Num y) -> j = length done /\ y = z).
      { intros j y Hj. destruct (Nat.lt_ge_cases j (length done)) as [C|C].
        - rewrite nth_error_app1 in Hj by exact C. apply nth_error_In in Hj. apply Hd in Hj. discriminate.
        - rewrite nth_error_app2 in Hj by exact C. destruct (j - length done) as [|k] eqn:Ek.
          + injection Hj as ->. split; [lia|reflexivity].
          + destruct k; discriminate. }
      destruct (minmax_from_ok rest (done ++ [Num z]) (length done) z (length done) z) as (i & a & j & b & E & R).
      * split; [exact NX|]. intros j y Hj. apply SP in Hj. lia.
      * intros j Hj. apply SP in Hj. lia.
      * split; [exact NX|]. intros j y Hj. apply SP in Hj. lia.
      * intros j Hj. apply SP in Hj. lia.
      * exists i, a, j, b. rewrite E. auto.
Qed.

Lemma minmax_ok v : v <> [] ->
  (numbers v = [] -> minmax_ v = Ok ((0, NaN), (0, NaN))) /\
  (numbers v <> [] -> exists i z j y, minmax_ v = Ok ((i, Num z), (j, Num y)) /\
     smallest_at v i z /\ first_at v i z /\ largest_at v j y /\ last_at v j y).
Proof.
  intros H. destruct v as [|a v]; [congruence|]. unfold minmax_.
  destruct (minmax_skip_ok (a :: v) []) as [[H1 H2]|(i & z & j & y & E & R)].
  - intros x [].
  - cbn [length] in H2. rewrite H2. split; [|congruence]. intros _.
    assert (a = NaN) by (apply (numbers_all_nan _ H1); left; reflexivity). subst a. reflexivity.
  - cbn [length app] in *. rewrite E. split.
    + intros H1. exfalso. destruct R as ((R & _) & _). apply nth_error_In in R.
      apply (numbers_all_nan _ H1) in R. discriminate.
    + intros _. exists i, z, j, y. auto.
Qed.
