From Verif Require Import Base IndexProofs IndexSpec VecModel VecSpec VecProofs VecProofs2 OrderModel OrderSpec OrderProofs OrderProofs2.
From Coq Require Import ZifyBool.

(* ---- set operations ---- *)
Section Sets.
Context {A : Type} (ltA : A -> A -> bool).
Hypothesis W : weak_order ltA.

Lemma inter_eq x t1 y t2 : set_intersection_sorted ltA (x :: t1) (y :: t2) =
  if ltA x y then set_intersection_sorted ltA t1 (y :: t2)
  else if ltA y x then set_intersection_sorted ltA (x :: t1) t2
  else x :: set_intersection_sorted ltA t1 t2.
Proof. reflexivity. Qed.
Lemma union_eq x t1 y t2 : set_union_sorted ltA (x :: t1) (y :: t2) =
  if ltA x y then x :: set_union_sorted ltA t1 (y :: t2)
  else if ltA y x then y :: set_union_sorted ltA (x :: t1) t2
  else x :: set_union_sorted ltA t1 t2.
Proof. reflexivity. Qed.

Lemma inter_incl : forall v1 v2 z, In z (set_intersection_sorted ltA v1 v2) -> In z v1.
Proof.
  induction v1 as [|x t1 IH1]; [intros [|? ?] ? []|]. induction v2 as [|y t2 IH2]; intros z H; [destruct H|].
  rewrite inter_eq in H. destruct (ltA x y); [right; eapply IH1; exact H|]. destruct (ltA y x); [apply IH2; exact H|].
  destruct H as [<-|H]; [simpl; auto|right; eapply IH1; exact H].
Qed.
Lemma union_incl : forall v1 v2 z, In z (set_union_sorted ltA v1 v2) -> In z v1 \/ In z v2.
Proof.
  induction v1 as [|x t1 IH1]; [intros [|? ?] ?; simpl; auto|]. induction v2 as [|y t2 IH2]; intros z H; [auto|].
  rewrite union_eq in H. destruct (ltA x y); [|destruct (ltA y x)].
  - destruct H as [<-|H]; [simpl; auto|]. destruct (IH1 _ _ H); simpl; auto.
  - destruct H as [<-|H]; [simpl; auto|]. destruct (IH2 _ H); simpl; auto.
  - destruct H as [<-|H]; [simpl; auto|]. destruct (IH1 _ _ H); simpl; auto.
Qed.

Definition eqv (z y : A) := negb (ltA z y) && negb (ltA y z).
Lemma count_cons z x l : count_equiv ltA z (x :: l) = (if eqv z x then 1 else 0) + count_equiv ltA z l.
Proof. unfold count_equiv. cbn [filter]. unfold eqv. destruct (_ && _); reflexivity. Qed.
Lemma count_zero z l : (forall y, In y l -> ltA z y = true) -> count_equiv ltA z l = 0.
Proof.
  induction l as [|y l IH]; intros H; [reflexivity|]. rewrite count_cons. unfold eqv. rewrite (H y) by (simpl; auto). simpl.
  apply IH. intros; apply H; simpl; auto.
Qed.
Lemma eqv_true z x : eqv z x = true <-> equiv ltA z x.
Proof. unfold eqv, equiv. destruct (ltA z x), (ltA x z); simpl; split; try tauto; try (intros; discriminate); intros [? ?]; discriminate. Qed.
Lemma eqv_lt z x y : equiv ltA z x -> ltA x y = true -> ltA z y = true.
Proof. intros [E1 E2] H. destruct W as [As Co]. destruct (Co x z y H); congruence. Qed.
Lemma lt_le x y z : ltA x y = true -> ltA z y = false -> ltA x z = true.
Proof. intros H1 H2. destruct W as [As Co]. destruct (Co x z y H1); congruence. Qed.

(* everything in an ascending list y :: t is above x when x < y *)
Lemma above x y t : ascending ltA (y :: t) -> ltA x y = true -> forall z, In z (y :: t) -> ltA x z = true.
Proof.
  intros O H z Hz. unfold ascending in O. rewrite ordered_cons in O. destruct O as [O _].
  destruct Hz as [<-|Hz]; [exact H|]. eapply lt_le; [exact H|apply O; exact Hz].
Qed.
Lemma eqv_count z x l : eqv z x = true -> (forall y, In y l -> ltA x y = true) -> count_equiv ltA z l = 0.
Proof. intros E H. apply count_zero. intros y Hy. eapply eqv_lt; [apply eqv_true; exact E|apply H; exact Hy]. Qed.

Lemma eqv_congr z x y : ltA x y = false -> ltA y x = false -> eqv z x = eqv z y.
Proof.
  intros H1 H2. destruct (eqv z x) eqn:E1, (eqv z y) eqn:E2; try reflexivity; exfalso.
  - apply eqv_true in E1. assert (eqv z y = true); [|congruence]. apply eqv_true. destruct E1 as [A1 A2]. destruct W as [As Co].
    split; [destruct (ltA z y) eqn:X|destruct (ltA y z) eqn:X]; try reflexivity.
    + destruct (Co z x y X); congruence.
    + destruct (Co y x z X); congruence.
  - apply eqv_true in E2. assert (eqv z x = true); [|congruence]. apply eqv_true. destruct E2 as [A1 A2]. destruct W as [As Co].
    split; [destruct (ltA z x) eqn:X|destruct (ltA x z) eqn:X]; try reflexivity.
    + destruct (Co z y x X); congruence.
    + destruct (Co x y z X); congruence.
Qed.

Lemma asc_tl x l : ascending ltA (x :: l) -> ascending ltA l.
Proof. unfold ascending. rewrite ordered_cons. tauto. Qed.

Lemma inter_count z : forall v1 v2, ascending ltA v1 -> ascending ltA v2 ->
  count_equiv ltA z (set_intersection_sorted ltA v1 v2) = Nat.min (count_equiv ltA z v1) (count_equiv ltA z v2).
Proof.
  induction v1 as [|x t1 IH1]; [intros [|? ?]; reflexivity|]. induction v2 as [|y t2 IH2]; intros O1 O2.
  - cbn. lia.
  - rewrite inter_eq. destruct (ltA x y) eqn:C1; [|destruct (ltA y x) eqn:C2].
    + rewrite IH1 by (try assumption; eapply asc_tl; eassumption). rewrite (count_cons z x t1).
      destruct (eqv z x) eqn:E; [|reflexivity].
      rewrite (eqv_count z x (y :: t2) E (above x y t2 O2 C1)). lia.
    + rewrite IH2 by (try assumption; eapply asc_tl; eassumption). rewrite (count_cons z y t2).
      destruct (eqv z y) eqn:E; [|reflexivity].
      rewrite (eqv_count z y (x :: t1) E (above y x t1 O1 C2)). lia.
    + rewrite !count_cons, IH1 by (eapply asc_tl; eassumption). rewrite (eqv_congr z x y C1 C2).
      destruct (eqv z y); lia.
Qed.

Lemma union_count z : forall v1 v2, ascending ltA v1 -> ascending ltA v2 ->
  count_equiv ltA z (set_union_sorted ltA v1 v2) = Nat.max (count_equiv ltA z v1) (count_equiv ltA z v2).
Proof.
  induction v1 as [|x t1 IH1]; [intros [|? ?]; reflexivity|]. induction v2 as [|y t2 IH2]; intros O1 O2.
  - cbn [set_union_sorted]. unfold count_equiv at 3. cbn. lia.
  - rewrite union_eq. destruct (ltA x y) eqn:C1; [|destruct (ltA y x) eqn:C2].
    + rewrite (count_cons z x (set_union_sorted _ _ _)).
      rewrite IH1 by (try assumption; eapply asc_tl; eassumption). rewrite (count_cons z x t1).
      destruct (eqv z x) eqn:E; [|reflexivity].
      rewrite (eqv_count z x (y :: t2) E (above x y t2 O2 C1)). lia.
    + rewrite (count_cons z y (set_union_sorted _ _ _)).
      rewrite IH2 by (try assumption; eapply asc_tl; eassumption). rewrite (count_cons z y t2).
      destruct (eqv z y) eqn:E; [|reflexivity].
      rewrite (eqv_count z y (x :: t1) E (above y x t1 O1 C2)). lia.
    + rewrite !count_cons, IH1 by (eapply asc_tl; eassumption). rewrite (eqv_congr z x y C1 C2).
      destruct (eqv z y); lia.
Qed.

Lemma inter_asc : forall v1 v2, ascending ltA v1 -> ascending ltA (set_intersection_sorted ltA v1 v2).
Proof.
  induction v1 as [|x t1 IH1]; [intros [|? ?] _; apply ordered_nil|]. induction v2 as [|y t2 IH2]; intros O1; [apply ordered_nil|].
  rewrite inter_eq. destruct (ltA x y); [apply IH1; eapply asc_tl; exact O1|]. destruct (ltA y x); [apply IH2; exact O1|].
  unfold ascending. rewrite ordered_cons. split; [|apply IH1; eapply asc_tl; exact O1].
  intros z Hz. apply inter_incl in Hz. unfold ascending in O1. rewrite ordered_cons in O1. apply O1; exact Hz.
Qed.

Lemma union_asc : forall v1 v2, ascending ltA v1 -> ascending ltA v2 -> ascending ltA (set_union_sorted ltA v1 v2).
Proof.
  destruct W as [As Co].
  induction v1 as [|x t1 IH1]; [intros [|? ?] _ H; exact H|]. induction v2 as [|y t2 IH2]; intros O1 O2; [exact O1|].
  pose proof O1 as O1'. pose proof O2 as O2'. unfold ascending in O1', O2'. rewrite ordered_cons in O1', O2'.
  destruct O1' as [A1 B1]. destruct O2' as [A2 B2].
  rewrite union_eq. destruct (ltA x y) eqn:C1; [|destruct (ltA y x) eqn:C2]; unfold ascending; rewrite ordered_cons.
  - split; [|apply IH1; assumption]. intros z Hz. apply union_incl in Hz. destruct Hz as [Hz|Hz]; [apply A1; exact Hz|].
    apply As. apply (above x y t2 O2 C1 z Hz).
  - split; [|apply IH2; assumption]. intros z Hz. apply union_incl in Hz. destruct Hz as [Hz|Hz]; [|apply A2; exact Hz].
    apply As. apply (above y x t1 O1 C2 z Hz).
  - split; [|apply IH1; assumption]. intros z Hz. apply union_incl in Hz. destruct Hz as [Hz|Hz]; [apply A1; exact Hz|].
    apply (ge_trans ltA W x y z); [exact C2|]. apply A2; exact Hz.
Qed.

Lemma count_pos z l : 0 < count_equiv ltA z l <-> exists y, In y l /\ equiv ltA z y.
Proof.
  unfold count_equiv. split.
  - intros H. destruct (filter _ l) as [|y r] eqn:E; [simpl in H; lia|].
    assert (Hy : In y (y :: r)) by (simpl; auto). rewrite <- E in Hy. apply filter_In in Hy. exists y. split; [tauto|]. apply eqv_true. tauto.
  - intros (y & Hy & E). apply eqv_true in E. assert (H : In y (filter (eqv z) l)) by (apply filter_In; auto).
    unfold eqv in H. destruct (filter _ l); [destruct H|simpl; lia].
Qed.

Lemma count_perm z l1 l2 : Permutation l1 l2 -> count_equiv ltA z l1 = count_equiv ltA z l2.
Proof.
  unfold count_equiv. induction 1; simpl; try reflexivity.
  - destruct (_ && _); simpl; lia.
  - destruct (negb _ && _), (negb (ltA z x) && _); simpl; lia.
  - lia.
Qed.

(* ---- binary searches ---- *)
Lemma std_upper_ok v x : ascending ltA v -> forall fuel first len, len < fuel -> first + len <= length v ->
  exists r, std_upper fuel ltA v x first len = Ok r /\ first <= r <= first + len /\
    (forall i y, first <= i < r -> nth_error v i = Some y -> ltA x y = false) /\
    (forall i y, r <= i < first + len -> nth_error v i = Some y -> ltA x y = true).
Proof.
  intros O. induction fuel as [|fuel IH]; intros first len Hf Hl; [lia|]. cbn [std_upper].
  destruct len as [|len']; [exists first; split; [reflexivity|]; split; [lia|]; split; intros; lia|].
  set (len := S len') in *. set (half := len / 2).
  assert (Hh : half < len) by (apply Nat.div_lt; lia).
  unfold oget. destruct (nth_error v (first + half)) as [y|] eqn:E; [|apply nth_error_None in E; lia]. cbn [obind].
  destruct (ltA x y) eqn:C.
  - destruct (IH first half ltac:(lia) ltac:(lia)) as (r & R1 & R2 & R3 & R4).
    exists r. split; [exact R1|]. split; [lia|]. split; [exact R3|]. intros i z Hi Hz.
    destruct (Nat.lt_ge_cases i (first + half)) as [H|H]; [apply (R4 i z); [lia|exact Hz]|].
    destruct (Nat.eq_dec i (first + half)) as [->|Hn]; [congruence|].
    eapply lt_le; [exact C|]. apply (O (first + half) i y z); [lia|exact E|exact Hz].
  - destruct (IH (first + half + 1) (len - half - 1) ltac:(lia) ltac:(lia)) as (r & R1 & R2 & R3 & R4).
    exists r. split; [exact R1|]. split; [lia|]. split.
    + intros i z Hi Hz. destruct (Nat.lt_ge_cases i (first + half + 1)) as [H|H]; [|apply (R3 i z); [lia|exact Hz]].
      destruct (Nat.eq_dec i (first + half)) as [->|Hn]; [congruence|].
      pose proof (O i (first + half) z y ltac:(lia) Hz E) as H'. cbn in H'.
      destruct (ltA x z) eqn:X; [|reflexivity]. pose proof (lt_le x z y X H'). congruence.
    + intros i z Hi Hz. apply (R4 i z); [lia|exact Hz].
Qed.

Lemma std_lower_ok v x : ascending ltA v -> forall fuel first len, len < fuel -> first + len <= length v ->
  exists r, std_lower fuel ltA v x first len = Ok r /\ first <= r <= first + len /\
    (forall i y, first <= i < r -> nth_error v i = Some y -> ltA y x = true) /\
    (forall i y, r <= i < first + len -> nth_error v i = Some y -> ltA y x = false).
Proof.
  intros O. induction fuel as [|fuel IH]; intros first len Hf Hl; [lia|]. cbn [std_lower].
  destruct len as [|len']; [exists first; split; [reflexivity|]; split; [lia|]; split; intros; lia|].
  set (len := S len') in *. set (half := len / 2).
  assert (Hh : half < len) by (apply Nat.div_lt; lia).
  unfold oget. destruct (nth_error v (first + half)) as [y|] eqn:E; [|apply nth_error_None in E; lia]. cbn [obind].
  destruct (ltA y x) eqn:C.
  - destruct (IH (first + half + 1) (len - half - 1) ltac:(lia) ltac:(lia)) as (r & R1 & R2 & R3 & R4).
    exists r. split; [exact R1|]. split; [lia|]. split.
    + intros i z Hi Hz. destruct (Nat.lt_ge_cases i (first + half + 1)) as [H|H]; [|apply (R3 i z); [lia|exact Hz]].
      destruct (Nat.eq_dec i (first + half)) as [->|Hn]; [congruence|].
      pose proof (O i (first + half) z y ltac:(lia) Hz E) as H'. cbn in H'.
      destruct W as [As Co]. destruct (Co y z x C); [congruence|assumption].
    + intros i z Hi Hz. apply (R4 i z); [lia|exact Hz].
  - destruct (IH first half ltac:(lia) ltac:(lia)) as (r & R1 & R2 & R3 & R4).
    exists r. split; [exact R1|]. split; [lia|]. split; [exact R3|]. intros i z Hi Hz.
    destruct (Nat.lt_ge_cases i (first + half)) as [H|H]; [apply (R4 i z); [lia|exact Hz]|].
    destruct (Nat.eq_dec i (first + half)) as [->|Hn]; [congruence|].
    pose proof (O (first + half) i y z ltac:(lia) E Hz) as H'. cbn in H'.
    apply (ge_trans ltA W x y z); assumption.
Qed.

Lemma upper_iter_ok v x first : ascending ltA v -> first <= length v ->
  exists r, upper_iter ltA v x first = Ok r /\ first <= r <= length v /\
    (forall i y, first <= i < r -> nth_error v i = Some y -> ltA x y = false) /\
    (forall i y, r <= i -> nth_error v i = Some y -> ltA x y = true).
Proof.
  intros O H. destruct (std_upper_ok v x O (S (length v)) first (length v - first) ltac:(lia) ltac:(lia)) as (r & R1 & R2 & R3 & R4).
  exists r. split; [exact R1|]. split; [lia|]. split; [exact R3|]. intros i y Hi Hy. apply (R4 i y); [|exact Hy].
  assert (i < length v) by (apply nth_error_Some; congruence). lia.
Qed.
Lemma lower_iter_ok v x first : ascending ltA v -> first <= length v ->
  exists r, lower_iter ltA v x first = Ok r /\ first <= r <= length v /\
    (forall i y, first <= i < r -> nth_error v i = Some y -> ltA y x = true) /\
    (forall i y, r <= i -> nth_error v i = Some y -> ltA y x = false).
Proof.
  intros O H. destruct (std_lower_ok v x O (S (length v)) first (length v - first) ltac:(lia) ltac:(lia)) as (r & R1 & R2 & R3 & R4).
  exists r. split; [exact R1|]. split; [lia|]. split; [exact R3|]. intros i y Hi Hy. apply (R4 i y); [|exact Hy].
  assert (i < length v) by (apply nth_error_Some; congruence). lia.
Qed.

Lemma iter_last_le v x r : r <= length v ->
  (forall i y, 0 <= i < r -> nth_error v i = Some y -> ltA x y = false) ->
  (forall i y, r <= i -> nth_error v i = Some y -> ltA x y = true) ->
  last_le ltA v x (if r =? 0 then None else Some (r - 1)).
Proof.
  intros H1 H2 H3. destruct (Nat.eqb_spec r 0) as [->|Hn]; cbn [last_le].
  - intros i y. apply H3. lia.
  - split.
    + destruct (nth_error v (r - 1)) as [y|] eqn:E; [|apply nth_error_None in E; lia].
      exists y. split; [reflexivity|]. apply (H2 (r - 1)); [lia|exact E].
    + intros i y Hi. apply H3. lia.
Qed.
Lemma iter_first_gt v x r : r <= length v ->
  (forall i y, 0 <= i < r -> nth_error v i = Some y -> ltA x y = false) ->
  (forall i y, r <= i -> nth_error v i = Some y -> ltA x y = true) ->
  first_gt ltA v x (if r =? length v then None else Some r).
Proof.
  intros H1 H2 H3. destruct (Nat.eqb_spec r (length v)) as [->|Hn]; cbn [first_gt].
  - intros i y Hy. apply (H2 i); [|exact Hy]. split; [lia|]. apply nth_error_Some. congruence.
  - split.
    + destruct (nth_error v r) as [y|] eqn:E; [|apply nth_error_None in E; lia].
      exists y. split; [reflexivity|]. apply (H3 r); [lia|exact E].
    + intros i y Hi. apply H2. lia.
Qed.

Lemma nil_None (v : list A) i y : length v = 0 -> nth_error v i = Some y -> False.
Proof. intros H E. assert (i < length v) by (apply nth_error_Some; congruence). lia. Qed.

Lemma lower_bound_ok v x : ascending ltA v -> exists o, lower_bound ltA v x = Ok o /\ last_le ltA v x o.
Proof.
  intros O. unfold lower_bound. destruct (Nat.eqb_spec (length v) 0) as [E|E].
  - exists None. split; [reflexivity|]. intros i y Hy. destruct (nil_None _ _ _ E Hy).
  - destruct (upper_iter_ok v x 0 O ltac:(lia)) as (r & R1 & R2 & R3 & R4). rewrite R1. cbn [obind].
    eexists. split; [reflexivity|]. apply iter_last_le; [lia|exact R3|exact R4].
Qed.
Lemma upper_bound_ok v x : ascending ltA v -> exists o, upper_bound ltA v x = Ok o /\ first_gt ltA v x o.
Proof.
  intros O. unfold upper_bound. destruct (Nat.eqb_spec (length v) 0) as [E|E].
  - exists None. split; [reflexivity|]. intros i y Hy. destruct (nil_None _ _ _ E Hy).
  - destruct (upper_iter_ok v x 0 O ltac:(lia)) as (r & R1 & R2 & R3 & R4). rewrite R1. cbn [obind].
    eexists. split; [reflexivity|]. apply iter_first_gt; [lia|exact R3|exact R4].
Qed.
Lemma bounds1_ok v x : ascending ltA v -> exists a b, bounds1 ltA v x = Ok (a, b) /\ last_le ltA v x a /\ first_gt ltA v x b.
Proof.
  intros O. unfold bounds1. destruct (Nat.eqb_spec (length v) 0) as [E|E].
  - exists None, None. split; [reflexivity|]. split; intros i y Hy; destruct (nil_None _ _ _ E Hy).
  - destruct (upper_iter_ok v x 0 O ltac:(lia)) as (r & R1 & R2 & R3 & R4). rewrite R1. cbn [obind].
    pose proof (iter_last_le v x r ltac:(lia) R3 R4) as L. pose proof (iter_first_gt v x r ltac:(lia) R3 R4) as G.
    destruct (Nat.eqb_spec r (length v)) as [->|Hn].
    + destruct (Nat.eqb_spec (length v) 0); [lia|]. eexists _, _. split; [reflexivity|]. auto.
    + destruct (Nat.eqb_spec r 0) as [->|Hn0]; eexists _, _; (split; [reflexivity|]); auto.
Qed.
Lemma bounds2_ok v x1 x2 : ascending ltA v -> ltA x2 x1 = false ->
  exists a b, bounds2 ltA v x1 x2 = Ok (a, b) /\ last_le ltA v x1 a /\ first_gt ltA v x2 b.
Proof.
  intros O Hx. unfold bounds2. destruct (Nat.eqb_spec (length v) 0) as [E|E].
  - exists None, None. split; [reflexivity|]. split; intros i y Hy; destruct (nil_None _ _ _ E Hy).
  - destruct (upper_iter_ok v x1 0 O ltac:(lia)) as (r & R1 & R2 & R3 & R4). rewrite R1. cbn [obind].
    destruct (upper_iter_ok v x2 r O ltac:(lia)) as (r2 & Q1 & Q2 & Q3 & Q4). rewrite Q1. cbn [obind].
    eexists _, _. split; [reflexivity|]. split; [apply iter_last_le; [lia|exact R3|exact R4]|].
    apply iter_first_gt; [lia| |exact Q4]. intros i y Hi Hy.
    destruct (Nat.lt_ge_cases i r) as [H|H]; [|apply (Q3 i y); [lia|exact Hy]].
    specialize (R3 i y ltac:(lia) Hy). destruct W as [As Co]. destruct (ltA x2 y) eqn:X; [|reflexivity].
    destruct (Co x2 x1 y X); congruence.
Qed.
Lemma equal_range_ok v x : ascending ltA v ->
  exists o, equal_range ltA v x = Ok o /\
    match o with
    | Some (a, b) => a <= b <= length v /\ forall i y, nth_error v i = Some y -> (a <= i < b <-> equiv ltA x y)
    | None => forall i y, nth_error v i = Some y -> ltA y x = true
    end.
Proof.
  intros O. unfold equal_range.
  destruct (lower_iter_ok v x 0 O ltac:(lia)) as (a & A1 & A2 & A3 & A4). rewrite A1. cbn [obind].
  destruct (upper_iter_ok v x a O ltac:(lia)) as (b & B1 & B2 & B3 & B4). rewrite B1. cbn [obind].
  eexists. split; [reflexivity|]. destruct (Nat.eqb_spec a (length v)) as [E|E].
  - intros i y Hy. apply (A3 i y); [|exact Hy]. assert (i < length v) by (apply nth_error_Some; congruence). lia.
  - split; [lia|]. intros i y Hy. split.
    + intros [H1 H2]. split; [apply (B3 i y); [lia|exact Hy]|apply (A4 i y); [lia|exact Hy]].
    + intros [E1 E2]. split.
      * destruct (Nat.lt_ge_cases i a) as [H|H]; [|exact H]. specialize (A3 i y ltac:(lia) Hy). congruence.
      * destruct (Nat.lt_ge_cases i b) as [H|H]; [exact H|]. specialize (B4 i y ltac:(lia) Hy). congruence.
Qed.
End Sets.

(* ---- reverse, shift ---- *)
Lemma reverse_nth A (v : list A) i : i < length v -> nth_error (reverse v) i = nth_error v (length v - 1 - i).
Proof.
  unfold reverse. revert i. induction v as [|x v IH]; intros i H; [simpl in H; lia|]. cbn [rev length].
  destruct (Nat.eq_dec i (length v)) as [->|Hn].
  - rewrite nth_error_app2 by (rewrite rev_length; lia). rewrite rev_length, Nat.sub_diag.
    replace (S (length v) - 1 - length v) with 0 by lia. reflexivity.
  - simpl in H. rewrite nth_error_app1 by (rewrite rev_length; lia). rewrite IH by lia.
    replace (S (length v) - 1 - i) with (S (length v - 1 - i)) by lia. reflexivity.
Qed.

Lemma rotate_nth A (v : list A) m i : m <= length v -> i < length v ->
  nth_error (skipn m v ++ firstn m v) i = nth_error v ((i + m) mod (length v)).
Proof.
  intros Hm Hi. destruct (Nat.lt_ge_cases i (length v - m)) as [H|H].
  - rewrite nth_error_app1 by (rewrite skipn_length; lia). rewrite Nat.mod_small by lia.
    rewrite <- (firstn_skipn m v) at 2. rewrite nth_error_app2 by (rewrite firstn_length; lia).
    rewrite firstn_length. f_equal. lia.
  - rewrite nth_error_app2 by (rewrite skipn_length; lia). rewrite skipn_length.
    assert (E : (i + m) mod length v = i - (length v - m)).
    { symmetry. apply Nat.mod_unique with (q := 1); lia. }
    rewrite E. rewrite <- (firstn_skipn m v) at 3. rewrite nth_error_app1; [reflexivity|]. rewrite firstn_length. lia.
Qed.

Lemma shift_ok A (v : list A) n : v <> [] -> (- two63 < n < two63)%Z ->
  exists r, inplace_shift v n = Ok r /\ length r = length v /\
    forall i, i < length v ->
      nth_error r (Z.to_nat ((Z.of_nat i + n) mod Z.of_nat (length v))) = nth_error v i.
Proof.
  intros Hv Hn. unfold inplace_shift. destruct (Z.eqb_spec n (- two63)); [lia|].
  assert (L : 0 < length v) by (destruct v; [congruence|simpl; lia]).
  destruct (Z.eqb_spec (Z.of_nat (length v)) 0); [lia|]. set (len := Z.of_nat (length v)) in *.
  set (m := if (Z.rem (- n) len <? 0)%Z then (len + Z.rem (- n) len)%Z else Z.rem (- n) len).
  assert (Em : (m = (- n) mod len)%Z).
  { unfold m. destruct (Z.ltb_spec (Z.rem (- n) len) 0) as [H|H].
    - apply Z.mod_unique with (q := (Z.quot (- n) len - 1)%Z).
      + left. pose proof (Z.rem_bound_abs (- n) len ltac:(lia)). lia.
      + pose proof (Z.quot_rem' (- n) len). lia.
    - apply Z.mod_unique with (q := Z.quot (- n) len).
      + left. pose proof (Z.rem_bound_abs (- n) len ltac:(lia)). lia.
      + pose proof (Z.quot_rem' (- n) len). lia. }
  assert (Bm : (0 <= m < len)%Z) by (rewrite Em; apply Z.mod_pos_bound; lia).
  eexists. split; [reflexivity|].
  set (r := if (m =? 0)%Z then v else skipn (Z.to_nat m) v ++ firstn (Z.to_nat m) v).
  assert (Er : r = skipn (Z.to_nat m) v ++ firstn (Z.to_nat m) v).
  { unfold r. destruct (Z.eqb_spec m 0) as [->|]; [|reflexivity]. simpl. rewrite app_nil_r. reflexivity. }
  fold m. fold r. rewrite Er. split.
  - rewrite app_length, skipn_length, firstn_length. lia.
  - intros i Hi. rewrite rotate_nth.
    + f_equal. apply Nat2Z.inj. rewrite Nat2Z.inj_mod, Nat2Z.inj_add, !Z2Nat.id; [|lia|apply Z.mod_pos_bound; lia].
      fold len. rewrite Em, <- Zplus_mod. replace (Z.of_nat i + n + - n)%Z with (Z.of_nat i) by lia. apply Z.mod_small. lia.
    + lia.
    + apply Nat2Z.inj_lt. rewrite Z2Nat.id; [|apply Z.mod_pos_bound; lia]. apply Z.mod_pos_bound. lia.
Qed.

Lemma shift_inverse A (v : list A) n r : v <> [] -> (- two63 < n < two63)%Z ->
  inplace_shift v n = Ok r -> inplace_shift r (- n) = Ok v.
Proof.
  intros Hv Hn H. destruct (shift_ok A v n Hv Hn) as (r1 & E1 & L1 & N1).
  assert (r1 = r) by congruence. subst r1.
  assert (L : 0 < length v) by (destruct v; [congruence|simpl; lia]).
  assert (Hr : r <> []) by (destruct r; [simpl in L1; lia|discriminate]).
  destruct (shift_ok A r (- n) Hr ltac:(lia)) as (w & E2 & L2 & N2). rewrite E2. f_equal.
  apply list_eq_nth_error. intros i.
  destruct (Nat.lt_ge_cases i (length v)) as [Hi|Hi].
  - rewrite <- (N1 i Hi). rewrite <- N2.
    + f_equal. set (len := length v) in *. rewrite L1. rewrite Z2Nat.id by (apply Z.mod_pos_bound; lia).
      rewrite Zplus_mod_idemp_l. replace (Z.of_nat i + n + - n)%Z with (Z.of_nat i) by lia.
      rewrite Z.mod_small by lia. rewrite Nat2Z.id. reflexivity.
    + rewrite L1. apply Nat2Z.inj_lt. rewrite Z2Nat.id; [|apply Z.mod_pos_bound; lia]. apply Z.mod_pos_bound. lia.
  - rewrite !(proj2 (nth_error_None _ _)); [reflexivity|lia|lia].
Qed.

Lemma vec_eq_elem A (v w : vec A) d0 d1 : wf w -> v_dims w = [d0; d1] -> wf v -> v_dims v = [d0; d1] ->
  (forall i j, i < d0 -> j < d1 -> elem w [i; j] = elem v [i; j]) -> w = v.
Proof.
  intros [Lw _] Dw [Lv _] Dv H. destruct w as [dw xw], v as [dv xv]. cbn [v_dims v_data] in *. subst dw dv.
  f_equal. apply list_eq_nth_error. intros k.
  destruct (Nat.lt_ge_cases k (nprod [d0; d1])) as [Hk|Hk].
  - destruct (row_major_surj [d0; d1] k Hk) as (ids & R & E).
    inversion R as [|? i ? is Hi R1]; subst. inversion R1 as [|? j ? js Hj R2]; subst. inversion R2; subst.
    exact (H i j Hi Hj).
  - rewrite !(proj2 (nth_error_None _ _)); [reflexivity|lia|lia].
Qed.
