(* Lemmas on the bucket algorithm, part 1: the geometry of the buckets. *)
From Coq Require Import ZifyBool ZifyNat Psatz.
From Verif Require Import Base IndexModel VecModel VecProofs ImageModel MatModel XmatchModel XmatchSpec XbuckModel XbuckSpec.
Open Scope Z_scope.

Lemma memp_In p l : memp p l = true -> In p l.
Proof.
  unfold memp. intros H. apply existsb_exists in H. destruct H as (q & Hq & E). destruct p, q. cbn in E.
  assert (n = n1 /\ n0 = n2)%nat as [-> ->] by lia. exact Hq.
Qed.
Lemma vis_complete c nx ny k x y : (x < Nat.min (k + 3) nx)%nat -> (y < Nat.min (k + 3) ny)%nat ->
  c * c * corner (Z.of_nat x) (Z.of_nat y) <= (c * (2 * Z.of_nat (k + 2) + 1)) * (c * (2 * Z.of_nat (k + 2) + 1)) ->
  In (x, y) (snd (depth c nx ny (S k))).
Proof.
  intros Hx Hy Hn. cbn [depth snd]. apply in_or_app. destruct (memp (x, y) (snd (depth c nx ny k))) eqn:E.
  - left. apply memp_In, E.
  - right. unfold grow. replace (S k + 1)%nat with (k + 2)%nat by lia. apply filter_In. split.
    + apply in_prod; apply in_seq; lia.
    + cbn [fst snd]. rewrite E. lia.
Qed.
Lemma vis_union c nx ny k p : In p (snd (depth c nx ny k)) -> exists k', (k' <= k)%nat /\ In p (fst (depth c nx ny k')).
Proof.
  induction k as [|k IH]; intros H.
  - exists 0%nat. split; [lia|exact H].
  - cbn [depth snd] in H. apply in_app_or in H. destruct H as [H|H].
    + destruct (IH H) as (k' & A & B). exists k'. split; [lia|exact B].
    + exists (S k). split; [lia|exact H].
Qed.
Lemma mirror4_In l x y a b : In (x, y) l -> Z.abs a = Z.of_nat x -> Z.abs b = Z.of_nat y -> In (a, b) (mirror4 l).
Proof.
  intros H Ha Hb. unfold mirror4. cbv zeta. rewrite !in_app_iff, !in_map_iff.
  assert (a = Z.of_nat x \/ a = - Z.of_nat x) as Ea by lia.
  assert (b = Z.of_nat y \/ b = - Z.of_nat y) as Eb by lia.
  destruct Ea as [-> | ->], Eb as [-> | ->].
  - left. exists (x, y). cbn [fst snd]. split; [f_equal; lia|exact H].
  - right; right; right. exists (x, y). cbn [fst snd]. split; [f_equal; lia|exact H].
  - right; left. exists (x, y). cbn [fst snd]. split; [f_equal; lia|exact H].
  - right; right; left. exists (x, y). cbn [fst snd]. split; [f_equal; lia|exact H].
Qed.
Lemma offsets_In f k : (k < Nat.max (f_nx f) (f_ny f))%nat -> exists l, offsets f k = Ok l /\
  forall x y a b, In (x, y) (fst (depth (f_c f) (f_nx f) (f_ny f) k)) -> Z.abs a = Z.of_nat x -> Z.abs b = Z.of_nat y -> In (a, b) l.
Proof.
  intros Hk. destruct k as [|k].
  - exists [(0, 0)]. split; [reflexivity|]. cbn [depth fst]. intros x y a b [[= <- <-]|[]] Ha Hb. left. f_equal; lia.
  - exists (mirror4 (fst (depth (f_c f) (f_nx f) (f_ny f) (S k)))). split.
    + unfold offsets. replace ((S k <? f_nx f)%nat || (S k <? f_ny f)%nat) with true by lia. reflexivity.
    + intros. eapply mirror4_In; eauto.
Qed.

Lemma triangle a b e g s t : 0 <= s -> 0 <= t -> a * a + b * b <= s * s -> e * e + g * g <= t * t ->
  (a + e) * (a + e) + (b + g) * (b + g) <= (s + t) * (s + t).
Proof.
  intros Hs Ht H1 H2.
  assert (CS : (a * e + b * g) * (a * e + b * g) <= (s * t) * (s * t)).
  { assert ((a * e + b * g) * (a * e + b * g) <= (a * a + b * b) * (e * e + g * g)) by (pose proof (Z.square_nonneg (a * g - b * e)); nia).
    assert ((a * a + b * b) * (e * e + g * g) <= (s * s) * (t * t)) by (apply Z.mul_le_mono_nonneg; nia). nia. }
  assert (a * e + b * g <= s * t) by (assert (0 <= s * t) by nia; nia). nia.
Qed.

Lemma corner_le x y : corner x y <= (2*x-1)*(2*x-1) + (2*y-1)*(2*y-1).
Proof. unfold corner. etransitivity; [apply Z.le_min_l|apply Z.le_min_l]. Qed.
Lemma sq_le a b : - b <= a <= b -> a * a <= b * b.
Proof. intros H. nia. Qed.
Lemma sum_sq_0 u v : 400 * (u * u + v * v) <= 0 * 0 -> u = 0 /\ v = 0.
Proof. intros H. split; nia. Qed.
Lemma axis_le v K : 5 <= K -> 0 <= v -> 2 * v - 1 <= K - 2 -> 1 + (2 * v - 1) * (2 * v - 1) <= K * K.
Proof. intros. assert ((2 * v - 1) * (2 * v - 1) <= (K - 2) * (K - 2)) by (apply sq_le; lia). lia. Qed.

(* a source at X, Y (twice) of the centre of bucket 0, in bucket (x, y) *)
Lemma away c x X : 0 < c -> 2 * x * c - c <= X -> X <= 2 * x * c + c -> x <> 0 ->
  (2 * Z.abs x - 1) * c * ((2 * Z.abs x - 1) * c) <= X * X.
Proof.
  intros Hc H1 H2 Hx. destruct (Z.abs_spec x) as [(A & ->)|(A & ->)].
  - assert (0 <= (2 * x - 1) * c) by nia. nia.
  - assert (0 <= (2 * - x - 1) * c) by nia. nia.
Qed.

Lemma cover_geom c nx ny k a b X Y : 0 < c -> (Z.to_nat (Z.abs a) < nx)%nat -> (Z.to_nat (Z.abs b) < ny)%nat ->
  2 * a * c - c <= X <= 2 * a * c + c -> 2 * b * c - c <= Y <= 2 * b * c + c ->
  let m := match k with O => c | _ => c * (2 * Z.of_nat (k + 1) + 1) end in
  100 * (X * X + Y * Y) <= (10 * m - 2 * c) * (10 * m - 2 * c) ->
  In (Z.to_nat (Z.abs a), Z.to_nat (Z.abs b)) (snd (depth c nx ny k)).
Proof.
  intros Hc Ha Hb HX HY m H.
  assert (AX : a <> 0 -> (2 * Z.abs a - 1) * c * ((2 * Z.abs a - 1) * c) <= X * X) by (intros; apply away; lia).
  assert (AY : b <> 0 -> (2 * Z.abs b - 1) * c * ((2 * Z.abs b - 1) * c) <= Y * Y) by (intros; apply away; lia).
  destruct k as [|k].
  - subst m. assert (a = 0) by (destruct (Z.eq_dec a 0); [assumption|exfalso; specialize (AX n); assert (1 <= Z.abs a) by lia; assert (c <= (2 * Z.abs a - 1) * c) by nia; nia]).
    assert (b = 0) by (destruct (Z.eq_dec b 0); [assumption|exfalso; specialize (AY n); assert (1 <= Z.abs b) by lia; assert (c <= (2 * Z.abs b - 1) * c) by nia; nia]).
    subst. left. reflexivity.
  - subst m. replace (S k + 1)%nat with (k + 2)%nat in H by lia. set (K := 2 * Z.of_nat (k + 2) + 1) in *.
    assert (HK : 5 <= K) by (unfold K; lia).
    assert (SS : X * X + Y * Y < (c * K) * (c * K)).
    { assert (100 * (X * X + Y * Y) < 100 * ((c * K) * (c * K))) by (assert (0 < c * K) by nia; nia). lia. }
    assert (L : forall z Z_, z <> 0 -> (2 * Z.abs z - 1) * c * ((2 * Z.abs z - 1) * c) <= Z_ * Z_ -> Z_ * Z_ < (c * K) * (c * K) -> 2 * Z.abs z - 1 < K).
    { intros z Z_ Hz H1 H2. destruct (Z.lt_ge_cases (2 * Z.abs z - 1) K) as [|G]; [assumption|]. exfalso.
      assert (G1 : c * K <= (2 * Z.abs z - 1) * c) by (rewrite (Z.mul_comm _ c); apply Z.mul_le_mono_nonneg_l; lia).
      assert (G0 : 0 <= c * K) by (apply Z.mul_nonneg_nonneg; lia).
      pose proof (Z.mul_le_mono_nonneg _ _ _ _ G0 G1 G0 G1). lia. }
    assert (Ba : 2 * Z.abs a - 1 < K) by (destruct (Z.eq_dec a 0); [lia|apply (L a X); [assumption|apply AX; assumption|pose proof (Z.square_nonneg Y); lia]]).
    assert (Bb : 2 * Z.abs b - 1 < K) by (destruct (Z.eq_dec b 0); [lia|apply (L b Y); [assumption|apply AY; assumption|pose proof (Z.square_nonneg X); lia]]).
    apply vis_complete; [unfold K in Ba; lia|unfold K in Bb; lia|]. fold K.
    rewrite !Z2Nat.id by lia.
    assert (C : corner (Z.abs a) (Z.abs b) <= K * K).
    { rewrite corner_le. clear L.
      assert (Pu : 2 * Z.abs a - 1 <= K - 2) by (unfold K in *; lia). assert (Pv : 2 * Z.abs b - 1 <= K - 2) by (unfold K in *; lia).
      destruct (Z.eq_dec a 0) as [Ea|Ea].
      - rewrite Ea at 1 2. apply (axis_le (Z.abs b) K HK); [lia|exact Pv].
      - destruct (Z.eq_dec b 0) as [Eb|Eb].
        + rewrite Eb at 1 2. rewrite Z.add_comm. apply (axis_le (Z.abs a) K HK); [lia|exact Pu].
        + specialize (AX Ea). specialize (AY Eb). revert AX AY SS Hc. generalize (Z.abs a) (Z.abs b). clearbody K. clear.
          intros u v AX AY SS Hc.
          assert (Q : c * c * ((2 * u - 1) * (2 * u - 1) + (2 * v - 1) * (2 * v - 1)) < c * c * (K * K)) by lia.
          apply Z.mul_lt_mono_pos_l in Q; [lia|nia]. }
    assert (Hcc : 0 <= c * c) by (clear -Hc; nia).
    apply Z.le_trans with (c * c * (K * K)); [apply Z.mul_le_mono_nonneg_l; [exact Hcc|exact C]|lia].
Qed.

(* The buckets reached at depth k contain every source within the reached distance. *)
Lemma cover f k x0 y0 x1 y1 px py qx qy cd :
  let c := f_c f in
  0 < c -> (x0 < f_nx f)%nat -> (y0 < f_ny f)%nat -> (x1 < f_nx f)%nat -> (y1 < f_ny f)%nat ->
  Z.of_nat x0 = (px - f_r0 f) / c -> Z.of_nat y0 = (py - f_d0 f) / c ->
  Z.of_nat x1 = (qx - f_r0 f) / c -> Z.of_nat y1 = (qy - f_d0 f) / c ->
  0 <= cd ->
  (let A := 2 * (px - f_r0 f) - (2 * Z.of_nat x0 + 1) * c in let B := 2 * (py - f_d0 f) - (2 * Z.of_nat y0 + 1) * c in
   100 * (A * A + B * B) <= 121 * (cd * cd)) ->
  400 * ((qx - px) * (qx - px) + (qy - py) * (qy - py)) <= reached f cd k * reached f cd k ->
  In (Z.to_nat (Z.abs (Z.of_nat x1 - Z.of_nat x0)), Z.to_nat (Z.abs (Z.of_nat y1 - Z.of_nat y0))) (snd (depth c (f_nx f) (f_ny f) k)).
Proof.
  intros c Hc Hx0 Hy0 Hx1 Hy1 E0 F0 E1 F1 Hcd HAB HD. cbv zeta in HAB.
  pose proof (Z.div_mod (px - f_r0 f) c ltac:(lia)) as D1. pose proof (Z.mod_pos_bound (px - f_r0 f) c Hc) as B1.
  pose proof (Z.div_mod (py - f_d0 f) c ltac:(lia)) as D2. pose proof (Z.mod_pos_bound (py - f_d0 f) c Hc) as B2.
  pose proof (Z.div_mod (qx - f_r0 f) c ltac:(lia)) as D3. pose proof (Z.mod_pos_bound (qx - f_r0 f) c Hc) as B3.
  pose proof (Z.div_mod (qy - f_d0 f) c ltac:(lia)) as D4. pose proof (Z.mod_pos_bound (qy - f_d0 f) c Hc) as B4.
  rewrite <- E0 in D1. rewrite <- F0 in D2. rewrite <- E1 in D3. rewrite <- F1 in D4.
  set (A := 2 * (px - f_r0 f) - (2 * Z.of_nat x0 + 1) * c) in *.
  set (B := 2 * (py - f_d0 f) - (2 * Z.of_nat y0 + 1) * c) in *.
  assert (Cases : (qx = px /\ qy = py) \/ 0 < reached f cd k).
  { unfold reached in *. destruct (Z.lt_ge_cases 0 (10 * max_dist f k - 11 * cd - 2 * f_c f)); [right; lia|left].
    rewrite Z.max_l in HD by lia. apply sum_sq_0 in HD. lia. }
  destruct Cases as [(-> & ->)|Hr].
  - assert (x1 = x0) as -> by lia. assert (y1 = y0) as -> by lia. rewrite !Z.sub_diag. cbn.
    clear. induction k as [|k IH]; [left; reflexivity|]. cbn [depth snd]. apply in_or_app. left. exact IH.
  - apply cover_geom with (X := 2 * (qx - px) + A) (Y := 2 * (qy - py) + B); [exact Hc|lia|lia|unfold A; lia|unfold B; lia|].
    cbv zeta. fold c in HD.
    assert (Em : (match k with O => c | _ => c * (2 * Z.of_nat (k + 1) + 1) end) = max_dist f k) by (destruct k; reflexivity).
    rewrite Em. clear Em.
    assert (Er : reached f cd k = 10 * max_dist f k - 11 * cd - 2 * c) by (unfold reached in *; fold c in Hr |- *; lia).
    pose proof (triangle (20 * (qx - px)) (20 * (qy - py)) (10 * A) (10 * B) (reached f cd k) (11 * cd)) as T.
    specialize (T ltac:(lia) ltac:(lia) ltac:(lia) ltac:(lia)).
    replace (10 * max_dist f k - 2 * c) with (reached f cd k + 11 * cd) by lia. lia.
Qed.

(* up to six buckets in each direction everything is reached *)
Lemma cover_small f x0 y0 x1 y1 : 0 < f_c f -> (x0 < f_nx f)%nat -> (y0 < f_ny f)%nat -> (x1 < f_nx f)%nat -> (y1 < f_ny f)%nat ->
  (f_nx f <= 6)%nat -> (f_ny f <= 6)%nat ->
  In (Z.to_nat (Z.abs (Z.of_nat x1 - Z.of_nat x0)), Z.to_nat (Z.abs (Z.of_nat y1 - Z.of_nat y0)))
     (snd (depth (f_c f) (f_nx f) (f_ny f) (Nat.max (f_nx f) (f_ny f) - 1))).
Proof.
  intros Hc Hx0 Hy0 Hx1 Hy1 H6 H6'. set (M := Nat.max (f_nx f) (f_ny f)).
  assert (Ha : (Z.to_nat (Z.abs (Z.of_nat x1 - Z.of_nat x0)) < f_nx f)%nat) by lia.
  assert (Hb : (Z.to_nat (Z.abs (Z.of_nat y1 - Z.of_nat y0)) < f_ny f)%nat) by lia.
  set (a := Z.to_nat (Z.abs (Z.of_nat x1 - Z.of_nat x0))) in *. set (b := Z.to_nat (Z.abs (Z.of_nat y1 - Z.of_nat y0))) in *.
  destruct (M - 1)%nat as [|k] eqn:Ek.
  - assert (a = 0)%nat as -> by lia. assert (b = 0)%nat as -> by lia. left. reflexivity.
  - apply vis_complete; [lia|lia|].
    assert (Hk : (k <= 4)%nat) by lia. set (K := 2 * Z.of_nat (k + 2) + 1).
    assert (Hak : (a <= k + 1)%nat) by lia. assert (Hbk : (b <= k + 1)%nat) by lia.
    assert (C : corner (Z.of_nat a) (Z.of_nat b) <= K * K).
    { rewrite corner_le.
      assert (S1 : (2 * Z.of_nat a - 1) * (2 * Z.of_nat a - 1) <= (2 * Z.of_nat k + 1) * (2 * Z.of_nat k + 1)) by (apply sq_le; lia).
      assert (S2 : (2 * Z.of_nat b - 1) * (2 * Z.of_nat b - 1) <= (2 * Z.of_nat k + 1) * (2 * Z.of_nat k + 1)) by (apply sq_le; lia).
      unfold K. clear -Hk S1 S2. nia. }
    assert (Hcc : 0 <= f_c f * f_c f) by (clear -Hc; nia).
    apply Z.le_trans with (f_c f * f_c f * (K * K)); [apply Z.mul_le_mono_nonneg_l; [exact Hcc|exact C]|lia].
Qed.
