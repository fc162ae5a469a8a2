(* Lemmas on circular masks. *)
From Coq Require Import QArith Qround Lqa ZifyBool ZifyNat.
From Verif Require Import Base IndexModel VecModel ImageModel ImageSpec ImageProofs QstackProofs5 CmaskModel CmaskSpec.
Local Open Scope nat_scope.

Lemma qlt_iff a b : qlt a b = true <-> (a < b)%Q.
Proof.
  unfold qlt. split; intros H.
  - destruct (Qle_bool b a) eqn:E; [discriminate|]. apply Qnot_le_lt. intros K. apply Qle_bool_iff in K. congruence.
  - destruct (Qle_bool b a) eqn:E; [|reflexivity]. apply Qle_bool_iff in E. lra.
Qed.
Lemma zq (a b : Z) : (a <= b)%Z -> (inject_Z a <= inject_Z b)%Q.
Proof. intros H. rewrite <- Zle_Qle. exact H. Qed.

Lemma low_ok v : (v < inject_Z (2 ^ 64))%Q -> exists n, low_bound v = Ok n /\
  (forall i, i < n -> (inject_Z (Z.of_nat i) + 1 <= v)%Q).
Proof.
  intros H. unfold low_bound. cbv zeta. destruct (Z.ltb_spec 0 (Qfloor v)) as [L|L].
  - unfold to_uint. assert (Qfloor v < 2 ^ 64)%Z. { apply Z.nle_gt. intros K. apply zq in K. pose proof (Qfloor_le v). lra. }
    replace ((0 <=? Qfloor v) && (Qfloor v <? 2 ^ 64))%Z with true by lia. eexists. split; [reflexivity|].
    intros i Hi. pose proof (Qfloor_le v) as F. assert (K : (Z.of_nat i + 1 <= Qfloor v)%Z) by lia. apply zq in K. rewrite inject_Z_plus in K. change (inject_Z 1) with 1%Q in K. lra.
  - exists 0. split; [reflexivity|]. intros; lia.
Qed.
Lemma high_ok v d : 0 < d -> (Z.of_nat d < two64)%Z -> (0 < v)%Q -> exists n, high_bound v d = Ok n /\ n < d /\
  (forall i, n < i -> i < d -> (v <= inject_Z (Z.of_nat i) - 1)%Q).
Proof.
  intros Hd Hb Hv. unfold high_bound. cbv zeta. assert (B : (two64 = 2 ^ 64)%Z) by reflexivity. rewrite Z.mod_small by lia.
  pose proof (Qle_ceiling v) as C. destruct (Z.ltb_spec (Qceiling v) (Z.of_nat d - 1)) as [L|L].
  - unfold to_uint. assert (0 <= Qceiling v)%Z. { apply Z.nlt_ge. intros K. assert (K' : (Qceiling v <= 0)%Z) by lia. apply zq in K'. change (inject_Z 0) with 0%Q in K'. lra. }
    replace ((0 <=? Qceiling v) && (Qceiling v <? 2 ^ 64))%Z with true by lia. eexists. split; [reflexivity|]. split; [lia|].
    intros i Hi _. assert (K : (Qceiling v <= Z.of_nat i - 1)%Z) by lia. apply zq in K. unfold Z.sub in K. rewrite inject_Z_plus in K. change (inject_Z (- (1))) with (- (1))%Q in K. lra.
  - eexists. split; [reflexivity|]. split; [lia|]. intros i Hi Hid. lia.
Qed.

Lemma coverage_ok r x y i j : (coverage (r * r) x y i j == inject_Z (Z.of_nat (corners_in r x y i j)) / 4)%Q.
Proof.
  unfold coverage, corners_in, corners_of, half. cbv zeta. cbn [filter fst snd].
  repeat match goal with |- context [Qle_bool ?a ?b] => destruct (Qle_bool a b) end; reflexivity.
Qed.
(* no corner is in the circle *)
Lemma none_in r x y i j : (0 <= r)%Q ->
  (forall c, In c (corners_of i j) -> (fst c - x < - r \/ r < fst c - x \/ snd c - y < - r \/ r < snd c - y)%Q) -> corners_in r x y i j = 0.
Proof.
  intros Hr H. unfold corners_in. induction (corners_of i j) as [|c l IH]; [reflexivity|]. cbn [filter].
  assert (K := H c (or_introl eq_refl)). destruct (Qle_bool _ _) eqn:E; [|apply IH; intros; apply H; right; assumption].
  exfalso. apply Qle_bool_iff in E. revert E K. generalize (fst c - x)%Q (snd c - y)%Q. intros a b E K.
  assert (A : (0 <= a * a)%Q) by nra. assert (B : (0 <= b * b)%Q) by nra.
  destruct K as [K|[K|[K|K]]]; nra.
Qed.
Lemma none_axis r x y i j : (0 <= r)%Q ->
  (inject_Z (Z.of_nat i) + 1 <= x - r \/ x + r <= inject_Z (Z.of_nat i) - 1 \/
   inject_Z (Z.of_nat j) + 1 <= y - r \/ y + r <= inject_Z (Z.of_nat j) - 1 \/ x + r < - (1 # 2) \/ y + r < - (1 # 2))%Q -> corners_in r x y i j = 0.
Proof.
  intros Hr H. apply none_in; [exact Hr|]. assert (Pi := zq 0 (Z.of_nat i) ltac:(lia)). assert (Pj := zq 0 (Z.of_nat j) ltac:(lia)).
  change (inject_Z 0) with 0%Q in *.
  intros c [<-|[<-|[<-|[<-|[]]]]]; cbn [fst snd]; destruct H as [H|[H|[H|[H|[H|H]]]]]; lra.
Qed.

Lemma mask_ok d0 d1 r x y : fits d0 d1 -> 0 < d0 -> 0 < d1 -> (0 <= r)%Q -> (0 < x + r)%Q -> (0 < y + r)%Q ->
  (x - r < inject_Z (2 ^ 64))%Q -> (y - r < inject_Z (2 ^ 64))%Q ->
  exists m, circular_mask d0 d1 r x y = Ok m /\ image_is Qeq d0 d1 m (fun i j => (inject_Z (Z.of_nat (corners_in r x y i j)) / 4)%Q).
Proof.
  intros Hf H0 H1 Hr Hx Hy Bx By. unfold circular_mask. rewrite filled_ok by exact Hf. cbn [obind pix].
  rewrite (proj2 (Qle_bool_iff 0 r) Hr). cbn [check obind]. rewrite (proj2 (qlt_iff _ _) Hx), (proj2 (qlt_iff _ _) Hy). cbn [andb].
  destruct (low_ok _ Bx) as (x0 & -> & Lx). destruct (low_ok _ By) as (y0 & -> & Lyy). cbn [obind].
  destruct Hf as (F1 & F2 & F3).
  destruct (high_ok (x + r)%Q d0 H0 F1 Hx) as (x1 & -> & Bx1 & Hx1). destruct (high_ok (y + r)%Q d1 H1 F2 Hy) as (y1 & -> & By1 & Hy1). cbn [obind].
  set (ps := list_prod _ _).
  assert (Hps : forall i j, In (i, j) ps <-> (x0 <= i <= x1 /\ y0 <= j <= y1)).
  { intros i j. unfold ps. rewrite in_prod_iff, !in_seq. lia. }
  destruct (write_all (fun p => fst p * d1 + snd p) (fun p => coverage (r * r) x y (fst p) (snd p)) ps (repeat 0%Q (d0 * d1))) as (d & E & Ld & O & S).
  { intros (i & j) I. apply Hps in I. cbn [fst snd]. rewrite repeat_length. apply pos_lt; lia. }
  assert (E' : ofold (fun d '(ix, iy) => pset d1 d ix iy (coverage (r * r) x y ix iy)) ps (repeat 0%Q (d0 * d1)) = Ok d).
  { rewrite <- E. clear. generalize (repeat 0%Q (d0 * d1)). induction ps as [|(i & j) ps IH]; intros l; [reflexivity|]. cbn [ofold]. unfold pset at 1. cbn [fst snd].
    destruct (oset l (i * d1 + j) _); cbn [obind]; auto. }
  rewrite E'. cbn [obind]. eexists. split; [reflexivity|]. split; [reflexivity|]. split; [reflexivity|]. cbn [pix].
  rewrite Ld, repeat_length. split; [reflexivity|]. intros i j Hi Hj.
  destruct (Nat.le_gt_cases x0 i) as [A1|A1], (Nat.le_gt_cases i x1) as [A2|A2], (Nat.le_gt_cases y0 j) as [A3|A3], (Nat.le_gt_cases j y1) as [A4|A4];
  try (exists 0%Q; split; [rewrite O; [apply nth_error_repeat; apply pos_lt; assumption|];
    intros (i' & j') I' E2; apply Hps in I'; cbn [fst snd] in E2; apply pos_inj in E2; [lia|lia|lia]
   |rewrite none_axis; [reflexivity|exact Hr|]; first [left; apply Lx; assumption|right; left; apply Hx1; assumption|right; right; left; apply Lyy; assumption|right; right; right; left; apply Hy1; assumption]]).
  exists (coverage (r * r) x y i j). split; [|apply coverage_ok].
  apply (S (i, j)); [apply Hps; lia|]. intros (i' & j') I' E2. apply Hps in I'. cbn [fst snd] in *. apply pos_inj in E2; [|lia|lia]. destruct E2 as (-> & ->). reflexivity.
Qed.
Lemma mask_empty d0 d1 r x y : fits d0 d1 -> (0 <= r)%Q -> (x + r <= 0 \/ y + r <= 0)%Q ->
  circular_mask d0 d1 r x y = Ok (Img d0 d1 (repeat 0%Q (d0 * d1))).
Proof.
  intros Hf Hr H. unfold circular_mask. rewrite filled_ok by exact Hf. cbn [obind pix].
  rewrite (proj2 (Qle_bool_iff 0 r) Hr). cbn [check obind].
  destruct (qlt 0 (x + r)) eqn:E1; [|reflexivity]. destruct (qlt 0 (y + r)) eqn:E2; [|reflexivity].
  apply qlt_iff in E1, E2. lra.
Qed.
