From Coq Require Import ZifyBool QArith Lqa Qminmax.
From Verif Require Import Base VecProofs VecProofs2 OrderModel OrderSpec OrderProofs OrderProofs2 OrderProofs3
  ReduceSpec ReduceProofs ReduceProofs2 ReduceProofs3 InterpModel InterpSpec InterpProofs IntegModel IntegSpec
  IntegProofs IntegProofs2.
Local Open Scope nat_scope.

(* ---- binned data: x is the lower edges followed by the upper edges ---- *)
Section Binned.
Variables (lo hi y : list Q).
Hypothesis L1 : length lo = length y.
Hypothesis L2 : length hi = length y.

Lemma bin_nodes k : k < length y -> exists a b v, nth_error lo k = Some a /\ nth_error hi k = Some b /\ nth_error y k = Some v /\
  oget (lo ++ hi) k = Ok a /\ oget (lo ++ hi) (k + length y) = Ok b /\ oget y k = Ok v /\
  nth_error (bins_of lo hi y) k = Some ((a, b), v).
Proof.
  intros H. destruct (oget_in _ lo k ltac:(lia)) as (a & _ & N1). destruct (oget_in _ hi k ltac:(lia)) as (b & _ & N2).
  destruct (oget_in _ y k H) as (v & E & N3). exists a, b, v. repeat (split; [assumption|]). split; [|split; [|split; [exact E|]]].
  - apply oget_Ok. rewrite nth_error_app1 by lia. exact N1.
  - apply oget_Ok. rewrite nth_error_app2 by lia. replace (k + length y - length lo) with k by lia. exact N2.
  - unfold bins_of. rewrite !nth_combine, N1, N2, N3. reflexivity.
Qed.
Lemma bins_len : length (bins_of lo hi y) = length y.
Proof. unfold bins_of. rewrite !combine_length. lia. Qed.

Notation B := (at_seg bin_area (bins_of lo hi y)).
Lemma binned_fold : forall m s r, s + m <= length y ->
  exists r', ofold (fun r i => yi <- oget y i ;; h <- oget (lo ++ hi) (i + length y) ;; l <- oget (lo ++ hi) i ;; Ok (r + yi * (h - l))%Q)
      (seq s m) r = Ok r' /\ (r' == r + qs B (seq s m))%Q.
Proof.
  induction m as [|m IH]; intros s r H.
  - exists r. split; [reflexivity|]. change (qs B (seq s 0)) with 0%Q. ring.
  - cbn [seq ofold]. destruct (bin_nodes s ltac:(lia)) as (a & b & v & N1 & N2 & N3 & E1 & E2 & E3 & NB).
    rewrite E3. cbn [obind]. rewrite E2. cbn [obind]. rewrite E1. cbn [obind].
    destruct (IH (S s) (r + v * (b - a))%Q ltac:(lia)) as (r' & E' & V'). exists r'. split; [exact E'|].
    rewrite V', qs_cons. unfold at_seg at 2. rewrite NB. unfold bin_area. cbn [fst snd]. ring.
Qed.

Lemma binned_ok : exists r, integrate_binned 2 (length y) (lo ++ hi) y = Ok r /\ (r == sum_with bin_area (bins_of lo hi y))%Q.
Proof.
  unfold integrate_binned. change (2 =? 2) with true. rewrite Nat.eqb_refl. cbn [check obind].
  destruct (binned_fold (length y) 0 0%Q ltac:(lia)) as (r & E & V). exists r. split; [exact E|].
  rewrite V, sum_with_qs, bins_len. ring.
Qed.

(* contiguous bins *)
Hypothesis Cont : forall k a b, nth_error hi k = Some a -> nth_error lo (k + 1) = Some b -> (a == b)%Q.
Hypothesis Up : forall k a b, nth_error lo k = Some a -> nth_error hi k = Some b -> (a <= b)%Q.

Lemma lo_mono : nondecreasing lo.
Proof.
  intros k a b Na Nb. assert (k + 1 < length lo) by (apply nth_error_Some; congruence).
  destruct (nth_error hi k) as [c|] eqn:Nc; [|apply nth_error_None in Nc; lia].
  pose proof (Cont k c b Nc Nb). pose proof (Up k a c Na Nc). lra.
Qed.

Notation C x0 x1 := (at_seg (bin_clip x0 x1) (bins_of lo hi y)).
Lemma bin_clip_eq x0 x1 a b v l r : (l == Qmax x0 a)%Q -> (r == Qmin x1 b)%Q -> (l <= r)%Q ->
  (bin_clip x0 x1 ((a, b), v) == v * (r - l))%Q.
Proof.
  intros H1 H2 H3. unfold bin_clip. cbn [fst snd]. destruct (Qlt_le_dec (Qmax x0 a) (Qmin x1 b)) as [K|K].
  - rewrite H1, H2. reflexivity.
  - assert (r - l == 0)%Q as E by (rewrite H1, H2; rewrite H1, H2 in H3; lra). rewrite E. ring.
Qed.
Lemma bin_clip_zero x0 x1 a b v : (b <= x0)%Q \/ (x1 <= a)%Q -> bin_clip x0 x1 ((a, b), v) = 0%Q.
Proof.
  intros H. unfold bin_clip. cbn [fst snd]. destruct (Qlt_le_dec (Qmax x0 a) (Qmin x1 b)) as [Hc|Hc]; [exfalso|reflexivity].
  pose proof (Q.le_max_l x0 a). pose proof (Q.le_max_r x0 a). pose proof (Q.le_min_l x1 b). pose proof (Q.le_min_r x1 b).
  destruct H; lra.
Qed.

Lemma clip_before x0 x1 k a : k + 1 < length y -> nth_error lo (k + 1) = Some a -> (a <= x0)%Q -> (C x0 x1 k == 0)%Q.
Proof.
  intros Hk Na Ha. destruct (bin_nodes k ltac:(lia)) as (p & q & v & N1 & N2 & N3 & _ & _ & _ & NB).
  unfold at_seg. rewrite NB. rewrite bin_clip_zero; [reflexivity|]. left. pose proof (Cont k q a N2 Na). lra.
Qed.
Lemma clip_after x0 x1 k a : k < length y -> nth_error lo k = Some a -> (x1 <= a)%Q -> (C x0 x1 k == 0)%Q.
Proof.
  intros Hk Na Ha. destruct (bin_nodes k ltac:(lia)) as (p & q & v & N1 & N2 & N3 & _ & _ & _ & NB).
  unfold at_seg. rewrite NB. rewrite bin_clip_zero; [reflexivity|]. right. rewrite Na in N1. injection N1 as <-. exact Ha.
Qed.

(* the bin that contains t *)
Lemma last_bin t front back : nth_error lo 0 = Some front -> nth_error hi (length y - 1) = Some back ->
  (front <= t)%Q -> (t <= back)%Q ->
  exists i a b v, lower_bound qlt lo t = Ok (Some i) /\ i < length y /\
    nth_error lo i = Some a /\ nth_error hi i = Some b /\ nth_error y i = Some v /\ (a <= t)%Q /\ (t <= b)%Q /\
    (forall j c, i < j -> nth_error lo j = Some c -> (t < c)%Q).
Proof.
  intros Nf Nb H1 H2. destruct (lower_bound_ok qlt qlt_order lo t (nondecreasing_ascending lo lo_mono)) as (o & E & S).
  destruct o as [i|]; [|exfalso; specialize (S _ _ Nf); apply qlt_true in S; lra].
  destruct S as [(a & Na & Ha) A]. apply qlt_false in Ha. assert (Hi : i < length y) by (rewrite <- L1; apply nth_error_Some; congruence).
  destruct (bin_nodes i Hi) as (a' & b & v & N1 & N2 & N3 & _). rewrite Na in N1. injection N1 as <-.
  exists i, a, b, v. repeat (split; [assumption|]). split.
  - destruct (Nat.eq_dec i (length y - 1)) as [K|K].
    + subst i. rewrite N2 in Nb. injection Nb as <-. exact H2.
    + destruct (nth_error lo (i + 1)) as [c|] eqn:Nc; [|apply nth_error_None in Nc; lia].
      pose proof (Cont i b c N2 Nc). assert (t < c)%Q; [|lra]. apply qlt_true. apply (A (i + 1)); [lia|exact Nc].
  - intros j c Hj Nc. apply qlt_true. apply (A j); assumption.
Qed.

Definition bin_error (i0 i1 : option nat) (x0 : Q) (e : Q) : Prop :=
  match i0, i1 with
  | Some i0, Some i1 =>
      if i1 <? i0 then (e == 0)%Q
      else exists va vb b, nth_error y (i0 - 1) = Some va /\ nth_error y i0 = Some vb /\ nth_error lo i0 = Some b /\
           (e == (vb - va) * (b - x0))%Q
  | _, _ => (e == 0)%Q
  end.

Lemma binned_bounds_ok x0 x1 front back : nth_error lo 0 = Some front -> nth_error hi (length y - 1) = Some back ->
  (front <= x0)%Q -> (x0 <= x1)%Q -> (x1 <= back)%Q ->
  exists i0 i1 r e, upper_bound qlt lo x0 = Ok i0 /\ lower_bound qlt lo x1 = Ok i1 /\
    integrate_binned_bounds 2 (length y) (lo ++ hi) y x0 x1 = Ok r /\ bin_error i0 i1 x0 e /\
    (r == sum_with (bin_clip x0 x1) (bins_of lo hi y) + e)%Q.
Proof.
  intros Nf Nb H1 H2 H3. assert (LY : 0 < length y) by (destruct lo; [discriminate|simpl in L1; lia]).
  destruct (last_bin x1 front back Nf Nb ltac:(lra) H3) as (i1 & c1 & d1 & v1 & E1 & B1 & P1 & P2 & P3 & P4 & P5 & P6).
  destruct (upper_bound_ok qlt qlt_order lo x0 (nondecreasing_ascending lo lo_mono)) as (o & E0 & S0).
  assert (Pre : forall k : Q -> Q -> outcome Q, 
    (_ <- check (2 =? 2) ;; _ <- check (length y =? length y) ;; _ <- check (negb (length y =? 0)) ;;
     f <- oget (lo ++ hi) 0 ;; b <- oget (lo ++ hi) (length (lo ++ hi) - 1) ;;
     _ <- check (Qle_bool f x0 && Qle_bool x1 b) ;; k f b) = k front back).
  { intros k. change (2 =? 2) with true. rewrite Nat.eqb_refl. cbn [check obind].
    destruct (Nat.eqb_spec (length y) 0); [lia|]. cbn [negb check obind].
    rewrite (proj2 (oget_Ok _ (lo ++ hi) 0 front)) by (rewrite nth_error_app1 by lia; exact Nf). cbn [obind].
    rewrite (proj2 (oget_Ok _ (lo ++ hi) _ back)).
    2:{ rewrite app_length, nth_error_app2 by lia. replace (length lo + length hi - 1 - length lo) with (length y - 1) by lia. exact Nb. }
    cbn [obind]. rewrite (proj2 (Qle_bool_iff _ _) H1), (proj2 (Qle_bool_iff _ _) H3). reflexivity. }
  exists o, (Some i1).
  unfold integrate_binned_bounds. rewrite (Pre (fun _ _ => _)). clear Pre.
  replace (firstn (length y) (lo ++ hi)) with lo by (rewrite <- L1; symmetry; apply firstn_app_l).
  rewrite E0, E1. cbn [obind].
  assert (OneBin : (forall a, nth_error lo i1 = Some a -> (a <= x0)%Q) ->
    (v1 * (x1 - x0) == sum_with (bin_clip x0 x1) (bins_of lo hi y))%Q).
  { intros HA. specialize (HA c1 P1). rewrite sum_with_qs, bins_len.
    replace (length y) with (i1 + (1 + (length y - 1 - i1))) by lia. rewrite !seq_app, !qs_app. cbn [Nat.add seq].
    rewrite qs_cons. change (qs (C x0 x1) []) with 0%Q.
    rewrite (qs_tail (C x0 x1) 0 i1).
    2:{ intros k Hk. destruct (nth_error lo (k + 1)) as [a|] eqn:Na; [|apply nth_error_None in Na; lia].
        apply (clip_before x0 x1 k a); [lia|exact Na|].
        pose proof (nondecreasing_mono lo (k + 1) i1 a c1 lo_mono ltac:(lia) Na P1). lra. }
    rewrite (qs_tail (C x0 x1) (i1 + 1)).
    2:{ intros k Hk. destruct (nth_error lo k) as [a|] eqn:Na; [|apply nth_error_None in Na; lia].
        apply (clip_after x0 x1 k a); [lia|exact Na|]. pose proof (P6 k a ltac:(lia) Na). lra. }
    destruct (bin_nodes i1 B1) as (a' & b' & v' & N1 & N2 & N3 & _ & _ & _ & NB). unfold at_seg. rewrite NB.
    rewrite P1 in N1; injection N1 as <-. rewrite P2 in N2; injection N2 as <-. rewrite P3 in N3; injection N3 as <-.
    rewrite (bin_clip_eq x0 x1 c1 d1 v1 x0 x1); [ring|symmetry; apply Q.max_l; exact HA|symmetry; apply Q.min_l; exact P5|exact H2]. }
  destruct (bin_nodes i1 B1) as (a1 & b1 & w1 & N1 & N2 & N3 & G1 & G2 & G3 & NB1).
  rewrite P1 in N1; injection N1 as <-. rewrite P2 in N2; injection N2 as <-. rewrite P3 in N3; injection N3 as <-.
  destruct o as [i0|].
  2:{ rewrite G3. cbn [obind]. exists (v1 * (x1 - x0))%Q, 0%Q. split; [reflexivity|]. split; [reflexivity|]. split; [reflexivity|].
      split; [reflexivity|]. rewrite <- OneBin; [ring|]. intros a Na. rewrite P1 in Na; injection Na as <-.
      specialize (S0 _ _ P1). apply qlt_false in S0. exact S0. }
  destruct S0 as [(b & Nb0 & Hb) A0]. apply qlt_true in Hb.
  assert (P0 : 1 <= i0). { destruct i0; [|lia]. rewrite Nf in Nb0. injection Nb0 as <-. lra. }
  assert (B0 : i0 < length y) by (rewrite <- L1; apply nth_error_Some; congruence).
  destruct (Nat.ltb_spec i1 i0) as [CI|CI].
  - rewrite G3. cbn [obind]. exists (v1 * (x1 - x0))%Q, 0%Q. split; [reflexivity|]. split; [reflexivity|]. split; [reflexivity|].
    split; [unfold bin_error; destruct (Nat.ltb_spec i1 i0); [reflexivity|lia]|].
    rewrite <- OneBin; [ring|]. intros a Na. apply qlt_false. apply (A0 i1); assumption.
  - destruct (binned_fold (i1 - i0) i0 0%Q ltac:(lia)) as (r & E & V). rewrite E. cbn [obind].
    destruct (bin_nodes i0 B0) as (a0 & b0 & v0 & K1 & K2 & K3 & F1 & F2 & F3 & NB0).
    rewrite Nb0 in K1; injection K1 as <-.
    rewrite F3. cbn [obind]. rewrite F1. cbn [obind]. rewrite G3. cbn [obind]. rewrite G1. cbn [obind].
    destruct (bin_nodes (i0 - 1) ltac:(lia)) as (am & bm & vm & M1 & M2 & M3 & _ & _ & _ & NBm).
    assert (Cm : (bm == b)%Q) by (apply (Cont (i0 - 1)); [exact M2|replace (i0 - 1 + 1) with i0 by lia; exact Nb0]).
    assert (Am : (am <= x0)%Q) by (apply qlt_false; apply (A0 (i0 - 1)); [lia|exact M1]).
    eexists _, ((v0 - vm) * (b - x0))%Q. split; [reflexivity|]. split; [reflexivity|]. split; [reflexivity|]. split.
    { unfold bin_error. destruct (Nat.ltb_spec i1 i0); [lia|]. exists vm, v0, b. repeat (split; [assumption|]). reflexivity. }
    pose proof (nondecreasing_mono lo i0 i1 b c1 lo_mono CI Nb0 P1) as Hbc.
    assert (SUM : (sum_with (bin_clip x0 x1) (bins_of lo hi y) == vm * (b - x0) + (qs B (seq i0 (i1 - i0)) + v1 * (x1 - c1)))%Q).
    { rewrite sum_with_qs, bins_len.
      replace (length y) with ((i0 - 1) + (1 + ((i1 - i0) + (1 + (length y - 1 - i1))))) by lia.
      rewrite !seq_app, !qs_app. replace (0 + (i0 - 1) + 1) with i0 by lia. replace (i0 + (i1 - i0)) with i1 by lia.
      cbn [Nat.add seq]. rewrite !qs_cons. change (qs (C x0 x1) []) with 0%Q.
      rewrite (qs_tail (C x0 x1) 0 (i0 - 1)).
      2:{ intros k Hk. destruct (nth_error lo (k + 1)) as [a|] eqn:Na; [|apply nth_error_None in Na; lia].
          apply (clip_before x0 x1 k a); [lia|exact Na|].
          pose proof (nondecreasing_mono lo (k + 1) (i0 - 1) a am lo_mono ltac:(lia) Na M1). lra. }
      rewrite (qs_tail (C x0 x1) (i1 + 1)).
      2:{ intros k Hk. destruct (nth_error lo k) as [a|] eqn:Na; [|apply nth_error_None in Na; lia].
          apply (clip_after x0 x1 k a); [lia|exact Na|]. pose proof (P6 k a ltac:(lia) Na). lra. }
      assert (Mid : (qs (C x0 x1) (seq i0 (i1 - i0)) == qs B (seq i0 (i1 - i0)))%Q).
      { assert (G : forall l, (forall k, In k l -> (C x0 x1 k == B k)%Q) -> (qs (C x0 x1) l == qs B l)%Q).
        { induction l as [|k l IH]; intros H0; [reflexivity|]. rewrite !qs_cons, (H0 k), IH; [reflexivity| |left; reflexivity].
          intros j Hj; apply H0; right; exact Hj. }
        apply G. intros k Hk. apply in_seq in Hk.
        destruct (bin_nodes k ltac:(lia)) as (ka & kb & kv & Q1 & Q2 & Q3 & _ & _ & _ & NBk).
        unfold at_seg. rewrite NBk. destruct (nth_error lo (k + 1)) as [kc|] eqn:Nkc; [|apply nth_error_None in Nkc; lia].
        pose proof (Cont k kb kc Q2 Nkc). pose proof (Up k ka kb Q1 Q2).
        pose proof (nondecreasing_mono lo i0 k b ka lo_mono ltac:(lia) Nb0 Q1).
        pose proof (nondecreasing_mono lo (k + 1) i1 kc c1 lo_mono ltac:(lia) Nkc P1).
        rewrite (bin_clip_eq x0 x1 ka kb kv ka kb); [reflexivity|symmetry; apply Q.max_r; lra|symmetry; apply Q.min_r; lra|assumption]. }
      rewrite Mid. unfold at_seg at 1. rewrite NBm. unfold at_seg at 2. rewrite NB1.
      rewrite (bin_clip_eq x0 x1 am bm vm x0 b); [|symmetry; apply Q.max_l; exact Am|rewrite <- Cm; symmetry; apply Q.min_r; lra|lra].
      rewrite (bin_clip_eq x0 x1 c1 d1 v1 c1 x1); [|symmetry; apply Q.max_r; lra|symmetry; apply Q.min_l; exact P5|exact P4]. ring. }
    rewrite SUM, V. ring.
Qed.
End Binned.
