(* bicubic_strict *)
From Coq Require Import QArith Qabs Qfield Qround Lqa Lia.
From Verif Require Import Base IndexProofs OrderModel OrderSpec InterpModel InterpSpec InterpProofs MatProofs VecProofs VecProofs2 OrderProofs3 SplineModel SplineSpec SplineProofs SplineProofs2 SplineProofs3 SplineProofs4.
Local Open Scope nat_scope.

Lemma natural_value_ext n x y y' t r : 0 < n -> (forall i, i <= n -> (y i == y' i)%Q) ->
  natural_value n x y t r -> natural_value n x y' t r.
Proof.
  intros Hn H (b & c & d & (T & S2 & S1) & S). exists b, c, d. split.
  - split; [|split; assumption]. intros k Hk. rewrite <- (H (k + 1)) by lia. rewrite <- (T k Hk).
    unfold cubic. rewrite (H k) by lia. reflexivity.
  - destruct S as [(A & B)|[(k & K & A1 & A2 & B)|(A & B)]].
    + left. split; [exact A|]. rewrite <- (H 0) by lia. exact B.
    + right; left. exists k. repeat split; try assumption. rewrite B. unfold cubic. rewrite (H k) by lia. reflexivity.
    + right; right. split; [exact A|]. rewrite <- (H n) by lia. exact B.
Qed.

Lemma floor_is t i : (inject_Z i <= t < inject_Z i + 1)%Q -> Qfloor t = i.
Proof.
  intros (A & B). pose proof (floor_le t) as F1. pose proof (floor_lt t) as F2.
  assert (inject_Z i < inject_Z (Qfloor t + 1))%Q as X by (rewrite inject_Z_plus; change (inject_Z 1) with 1%Q; lra).
  assert (inject_Z (Qfloor t) < inject_Z (i + 1))%Q as Y by (rewrite inject_Z_plus; change (inject_Z 1) with 1%Q; lra).
  rewrite <- Zlt_Qlt in X, Y. lia.
Qed.
Lemma floor64_is t i : (- two63 <= i < two63)%Z -> (inject_Z i <= t < inject_Z i + 1)%Q -> floor64 t = Ok i.
Proof.
  intros Hi H. unfold floor64. rewrite (floor_is t i H). unfold signed64.
  destruct (Z.leb_spec (- two63) i); [|lia]. destruct (Z.ltb_spec i two63); [reflexivity|lia].
Qed.

Lemma map_at_ok d0 d1 data i j : length data = d0 * d1 -> (Z.of_nat (d0 * d1) < two64)%Z -> i < d0 -> j < d1 ->
  map_at d1 data (Z.of_nat i) (Z.of_nat j) = Ok (cell d1 data i j).
Proof.
  intros L B Hi Hj. unfold map_at, cell. assert (i * d1 + j < d0 * d1) as P by nia.
  rewrite <- Nat2Z.inj_mul, <- Nat2Z.inj_add. rewrite wrap64_small by lia.
  destruct (Z.ltb_spec (Z.of_nat (i * d1 + j)) (Z.of_nat (length data))); [|lia].
  rewrite Nat2Z.id. unfold oget. rewrite (nth_error_nth' data 0%Q) by lia. reflexivity.
Qed.

Lemma row_ok d0 d1 data i j k : length data = d0 * d1 -> (Z.of_nat (d0 * d1) < two64)%Z ->
  1 <= i -> i - 1 + k < d0 -> 1 <= j -> j + 2 < d1 ->
  omapl (fun iy => map_at d1 data (Z.of_nat k + Z.of_nat i - 1) (Z.of_nat iy + Z.of_nat j - 1)) (seq 0 4) =
  Ok (map (fun m => cell d1 data (i - 1 + k) (j - 1 + m)) (seq 0 4)).
Proof.
  intros L B Hi Hk Hj Hj2. apply omapl_map. intros m Hm. apply in_seq in Hm.
  replace (Z.of_nat k + Z.of_nat i - 1)%Z with (Z.of_nat (i - 1 + k)) by lia.
  replace (Z.of_nat m + Z.of_nat j - 1)%Z with (Z.of_nat (j - 1 + m)) by lia.
  apply (map_at_ok d0); auto; lia.
Qed.

Lemma small_range t : (0 <= t <= 10)%Q -> (- inject_Z two63 <= t < inject_Z two63)%Q.
Proof.
  intros H. assert (10 < inject_Z two63)%Q by (change 10%Q with (inject_Z 10); rewrite <- Zlt_Qlt; reflexivity).
  split; lra.
Qed.

Lemma guard_false d i : 1 <= i -> i + 2 < d -> (Z.of_nat d < two64)%Z ->
  ((Z.of_nat i <=? 0)%Z = false /\ (wrap64 (Z.of_nat d - 2) <=? Z.of_nat i)%Z = false).
Proof.
  intros H1 H2 B. split; [destruct (Z.leb_spec (Z.of_nat i) 0); [lia|reflexivity]|].
  rewrite wrap64_small by lia. destruct (Z.leb_spec (Z.of_nat d - 2) (Z.of_nat i)); [lia|reflexivity].
Qed.

Lemma bicubic_ok d0 d1 data x y def i j :
  length data = d0 * d1 -> (Z.of_nat (d0 * d1) < two64)%Z ->
  1 <= i -> i + 2 < d0 -> 1 <= j -> j + 2 < d1 ->
  (unit_node i <= x < unit_node i + 1)%Q -> (unit_node j <= y < unit_node j + 1)%Q ->
  exists p r, bicubic d0 d1 data x y def = Ok (Some r) /\ length p = 4 /\
    (forall k, k < 4 -> natural_value 3 unit_node (fun m => cell d1 data (i - 1 + k) (j - 1 + m))
                          (y - unit_node j + 1)%Q (node p k)) /\
    natural_value 3 unit_node (node p) (x - unit_node i + 1)%Q r.
Proof.
  intros L B Hi1 Hi2 Hj1 Hj2 Hx Hy.
  assert (d0 < d0 * d1 /\ 4 * d0 <= d0 * d1 /\ 4 * d1 <= d0 * d1) as (_ & B1 & B2) by nia.
  assert (two64 = 2 * two63)%Z as TT by reflexivity.
  unfold bicubic. rewrite (floor64_is x (Z.of_nat i)) by (exact Hx || lia). cbn [obind].
  rewrite (floor64_is y (Z.of_nat j)) by (exact Hy || lia). cbn [obind].
  destruct (guard_false d0 i Hi1 Hi2 ltac:(lia)) as (-> & ->).
  destruct (guard_false d1 j Hj1 Hj2 ltac:(lia)) as (-> & ->). cbn [orb].
  set (R := fun k => map (fun m => cell d1 data (i - 1 + k) (j - 1 + m)) (seq 0 4)).
  assert (forall k, k < 4 -> exists r, spline_point_u (R k) (y - inject_Z (Z.of_nat j) + 1) = Ok (Some r) /\
    natural_value 3 unit_node (fun m => cell d1 data (i - 1 + k) (j - 1 + m)) (y - unit_node j + 1)%Q r) as G.
  { intros k Hk. destruct (spline_u_ok (R k) (y - unit_node j + 1)) as (r & E & N).
    - unfold R. rewrite map_length, seq_length. lia.
    - apply small_range. split; lra.
    - exists r. split; [exact E|]. unfold R in N. rewrite map_length, seq_length in N.
      apply (natural_value_ext 3 unit_node (node (R k))); [lia| |exact N].
      intros m Hm. unfold node, R. do 4 (destruct m as [|m]; [reflexivity|]). lia. }
  destruct (G 0 ltac:(lia)) as (r0 & E0 & N0). destruct (G 1 ltac:(lia)) as (r1 & E1 & N1).
  destruct (G 2 ltac:(lia)) as (r2 & E2 & N2). destruct (G 3 ltac:(lia)) as (r3 & E3 & N3).
  match goal with |- context [omapl ?F (seq 0 4)] => match F with (fun ix => obind _ _) => 
    assert (omapl F (seq 0 4) = Ok (map (fun k => Some (node [r0; r1; r2; r3] k)) (seq 0 4))) as -> end end.
  { apply omapl_map. intros k Hk. apply in_seq in Hk. rewrite (row_ok d0) by (auto; lia). cbn [obind]. fold (R k).
    do 4 (destruct k as [|k]; [assumption|]). lia. }
  cbn [obind map seq node nth].
  destruct (spline_u_ok [r0; r1; r2; r3] (x - unit_node i + 1)) as (r & E & N); [cbn; lia|apply small_range; split; lra|].
  exists [r0; r1; r2; r3], r. split; [exact E|]. split; [reflexivity|]. split; [|exact N].
  intros k Hk. do 4 (destruct k as [|k]; [assumption|]). lia.
Qed.

Lemma bicubic_node d0 d1 data x y def i j :
  length data = d0 * d1 -> (Z.of_nat (d0 * d1) < two64)%Z ->
  1 <= i -> i + 2 < d0 -> 1 <= j -> j + 2 < d1 -> (x == unit_node i)%Q -> (y == unit_node j)%Q ->
  exists r, bicubic d0 d1 data x y def = Ok (Some r) /\ (r == cell d1 data i j)%Q.
Proof.
  intros L B Hi1 Hi2 Hj1 Hj2 Hx Hy.
  destruct (bicubic_ok d0 d1 data x y def i j L B Hi1 Hi2 Hj1 Hj2) as (p & r & E & Lp & P & R); [split; lra|split; lra|].
  exists r. split; [exact E|].
  assert (forall f t r, (t == unit_node 1)%Q -> natural_value 3 unit_node f t r -> (r == f 1%nat)%Q) as G.
  { intros f t r0 Ht (b & c & d & (T & N) & S).
    apply (spline_at_node 3 unit_node f b c d 1 r0 (unit_ordered 3) T ltac:(lia)).
    destruct S as [(A & S)|[(k & K & A1 & A2 & S)|(A & S)]].
    - left. split; [rewrite <- Ht; exact A|]. rewrite S, Ht. reflexivity.
    - right; left. exists k. split; [exact K|]. split; [rewrite <- Ht; exact A1|]. split; [rewrite <- Ht; exact A2|].
      rewrite S. unfold cubic. rewrite Ht. reflexivity.
    - right; right. split; [rewrite <- Ht; exact A|]. rewrite S, Ht. reflexivity. }
  assert (x - unit_node i + 1 == unit_node 1)%Q as Ux by (rewrite Hx; change (unit_node 1) with 1%Q; ring).
  assert (y - unit_node j + 1 == unit_node 1)%Q as Uy by (rewrite Hy; change (unit_node 1) with 1%Q; ring).
  rewrite (G _ _ _ Ux R). rewrite (G _ _ _ Uy (P 1 ltac:(lia))).
  replace (i - 1 + 1) with i by lia. replace (j - 1 + 1) with j by lia. reflexivity.
Qed.

Lemma unit_add i k : (unit_node (i + k) == unit_node i + unit_node k)%Q.
Proof. unfold unit_node. rewrite Nat2Z.inj_add, inject_Z_plus. reflexivity. Qed.
Lemma unit_pred i : 1 <= i -> (unit_node (i - 1) == unit_node i - 1)%Q.
Proof. intros H. pose proof (unit_h (i - 1)) as U. replace (i - 1 + 1) with i in U by lia. lra. Qed.

Lemma bicubic_exact d0 d1 data x y def i j a b c e :
  length data = d0 * d1 -> (Z.of_nat (d0 * d1) < two64)%Z ->
  1 <= i -> i + 2 < d0 -> 1 <= j -> j + 2 < d1 ->
  (unit_node i <= x < unit_node i + 1)%Q -> (unit_node j <= y < unit_node j + 1)%Q ->
  (forall k m, k < d0 -> m < d1 -> (cell d1 data k m == a + b * unit_node k + c * unit_node m + e * unit_node k * unit_node m)%Q) ->
  exists r, bicubic d0 d1 data x y def = Ok (Some r) /\ (r == a + b * x + c * y + e * x * y)%Q.
Proof.
  intros L B Hi1 Hi2 Hj1 Hj2 Hx Hy F.
  destruct (bicubic_ok d0 d1 data x y def i j L B Hi1 Hi2 Hj1 Hj2 Hx Hy) as (p & r & E & Lp & P & R).
  exists r. split; [exact E|]. clear E.
  set (u := fun k => unit_node (i - 1 + k)).
  assert (forall k, k < 4 -> (node p k == a + b * u k + c * y + e * u k * y)%Q) as Hp.
  { intros k Hk.
    assert (forall m, m <= 3 -> (cell d1 data (i - 1 + k) (j - 1 + m) ==
      a + b * u k + (c + e * u k) * unit_node (j - 1) + (c + e * u k) * unit_node m)%Q) as Lk.
    { intros m Hm. rewrite F by lia. fold (u k). rewrite (unit_add (j - 1) m). ring. }
    pose proof (line_value 3 unit_node _ _ _ _ _ ltac:(lia) (unit_ordered 3) Lk (P k Hk)) as V.
    rewrite V, unit_pred by lia. ring. }
  assert (forall k, k <= 3 -> (node p k == a + c * y + (b + e * y) * unit_node (i - 1) + (b + e * y) * unit_node k)%Q) as Lp'.
  { intros k Hk. rewrite Hp by lia. unfold u. rewrite (unit_add (i - 1) k). ring. }
  pose proof (line_value 3 unit_node (node p) _ _ _ _ ltac:(lia) (unit_ordered 3) Lp' R) as V.
  rewrite V, unit_pred by lia. ring.
Qed.

Lemma bicubic_default d0 d1 data x y def :
  (- inject_Z two63 <= x < inject_Z two63)%Q -> (- inject_Z two63 <= y < inject_Z two63)%Q ->
  2 <= d0 -> 2 <= d1 -> (Z.of_nat d0 < two64)%Z -> (Z.of_nat d1 < two64)%Z ->
  (x < 1 \/ unit_node (d0 - 2) <= x \/ y < 1 \/ unit_node (d1 - 2) <= y)%Q ->
  bicubic d0 d1 data x y def = Ok (Some def).
Proof.
  intros Hx Hy H0 H1 B0 B1 C. unfold bicubic. rewrite (floor64_ok x Hx). cbn [obind]. rewrite (floor64_ok y Hy). cbn [obind].
  assert (forall t, (t < 1)%Q -> (Qfloor t <=? 0)%Z = true) as A1.
  { intros t Ht. pose proof (floor_le t) as F. apply Z.leb_le. assert (inject_Z (Qfloor t) < inject_Z 1)%Q as G by (change (inject_Z 1) with 1%Q; lra).
    rewrite <- Zlt_Qlt in G. lia. }
  assert (forall d t, 2 <= d -> (Z.of_nat d < two64)%Z -> (unit_node (d - 2) <= t)%Q -> (wrap64 (Z.of_nat d - 2) <=? Qfloor t)%Z = true) as A2.
  { intros d t Hd Hb Ht. rewrite wrap64_small by lia. apply Z.leb_le. unfold unit_node in Ht.
    rewrite <- (Qfloor_Z (Z.of_nat d - 2)). apply Qfloor_resp_le. replace (Z.of_nat d - 2)%Z with (Z.of_nat (d - 2)) by lia. exact Ht. }
  destruct C as [C|[C|[C|C]]].
  - rewrite (A1 x C). reflexivity.
  - rewrite (A2 d0 x H0 B0 C). rewrite orb_true_r. reflexivity.
  - rewrite (A1 y C). rewrite orb_true_r. reflexivity.
  - rewrite (A2 d1 y H1 B1 C). rewrite orb_true_r. reflexivity.
Qed.

(* a map with a single line: dims[0]-2 wraps around, the guard does not stop the access *)
Lemma bicubic_single d1 data x y def j : 4 <= d1 -> length data = d1 -> (Z.of_nat d1 < two63)%Z ->
  (1 <= x < 2)%Q -> 1 <= j -> j + 2 < d1 -> (unit_node j <= y < unit_node j + 1)%Q ->
  bicubic 1 d1 data x y def = UB.
Proof.
  intros H4 L B Hx Hj1 Hj2 Hy. assert (two64 = 2 * two63)%Z as TT by reflexivity.
  unfold bicubic. rewrite (floor64_is x 1) by (change (inject_Z 1) with 1%Q; lra || (split; [discriminate|reflexivity])). cbn [obind].
  rewrite (floor64_is y (Z.of_nat j)) by (exact Hy || lia). cbn [obind].
  change (1 <=? 0)%Z with false. change (wrap64 (Z.of_nat 1 - 2) <=? 1)%Z with false.
  destruct (guard_false d1 j Hj1 Hj2 ltac:(lia)) as (-> & ->). cbn [orb].
  match goal with |- context [omapl ?F (seq 0 4)] => match F with (fun ix => obind _ _) => set (G := F) end end.
  change (omapl G (seq 0 4)) with (y <- G 0 ;; ys <- omapl G [1; 2; 3] ;; Ok (y :: ys)).
  assert (G 1 = UB) as G1.
  { unfold G. change (seq 0 4) with [0; 1; 2; 3]. cbn [omapl].
    unfold map_at at 1. rewrite wrap64_small by lia.
    destruct (Z.ltb_spec ((Z.of_nat 1 + 1 - 1) * Z.of_nat d1 + (Z.of_nat 0 + Z.of_nat j - 1)) (Z.of_nat (length data))); [lia|]. reflexivity. }
  assert (exists r, G 0 = Ok r) as (r & G0).
  { unfold G. change 1%Z with (Z.of_nat 1) at 1. rewrite (row_ok 1 d1 data 1 j 0) by (auto; lia). cbn [obind].
  destruct (spline_u_ok (map (fun m => cell d1 data (1 - 1 + 0) (j - 1 + m)) (seq 0 4)) (y - inject_Z (Z.of_nat j) + 1)) as (r & E & _).
  { rewrite map_length, seq_length. lia. }
  { apply small_range. unfold unit_node in Hy. split; lra. }
  exists (Some r). exact E. }
  rewrite G0. cbn [obind omapl]. rewrite G1. reflexivity.
Qed.
