(* C66: bilinear interpolation and rebinning of maps. *)
From Coq Require Import QArith Qabs Qfield Qround Lqa Lia.
From Verif Require Import Base IndexProofs OrderModel InterpModel InterpSpec InterpProofs MatProofs SplineModel SplineSpec SplineProofs SplineProofs2 SplineProofs3 SplineProofs4
  BilinModel BilinSpec BilinProofs.
Local Open Scope nat_scope.

(* bilinear(map, x, y): the bilinear patch over the four pixels around (x, y), or over the outermost
   ones outside the map *)
Theorem C66_bilinear : forall d0 d1 data x y i j, map_ok d0 d1 data -> in_int64 x -> in_int64 y ->
  line_for d0 i x -> line_for d1 j y ->
  exists r, bilinear d0 d1 data x y = Ok r /\ (r == patch (cell d1 data) i j (x - unit_node i) (y - unit_node j))%Q.
Proof. exact bilinear_ok. Qed.
Print Assumptions C66_bilinear.
Theorem C66_pixels : forall d t, 2 <= d -> (Z.of_nat d <= two63)%Z ->
  exists i, line_for d i t /\ forall i', line_for d i' t -> i' = i.
Proof.
  intros d t H B. destruct (line_exists d t H B) as (i & L). exists i. split; [exact L|].
  intros i' L'. exact (line_unique d i' i t L' L).
Qed.
Print Assumptions C66_pixels.
Example C66_ex_bilinear :
  exists r, bilinear 3 2 [0; 1; 2; 3; 4; 7]%Q (3#2) (1#2) = Ok r /\ (r == 4)%Q.
Proof. eexists. split; [vm_compute; reflexivity|vm_compute; reflexivity]. Qed.
Example C66_ex_outside :
  exists r, bilinear 2 2 [0; 1; 2; 3]%Q (-1) 5 = Ok r /\ (r == 3)%Q.
Proof. eexists. split; [vm_compute; reflexivity|vm_compute; reflexivity]. Qed.

(* ... the pixels themselves are returned exactly, *)
Theorem C66_bilinear_pixel : forall d0 d1 data i j, map_ok d0 d1 data -> 2 <= d0 -> 2 <= d1 -> i < d0 -> j < d1 ->
  exists r, bilinear d0 d1 data (unit_node i) (unit_node j) = Ok r /\ (r == cell d1 data i j)%Q.
Proof.
  intros d0 d1 data i j M H0 H1 Hi Hj.
  pose proof (dim_bound d0 d1 data M H1) as B0. pose proof (dim_bound' d0 d1 data M H0) as B1.
  assert (forall d k, (Z.of_nat d <= two63)%Z -> k < d -> in_int64 (unit_node k)) as R.
  { intros d k B Hk. unfold in_int64, unit_node. rewrite <- inject_Z_opp, <- Zle_Qle, <- Zlt_Qlt. split; [unfold two63|]; lia. }
  assert (forall d k, 2 <= d -> k < d -> exists l, line_for d l (unit_node k) /\ (k = l \/ k = l + 1)) as L.
  { intros d k Hd Hk. destruct (Nat.eq_dec (k + 1) d) as [E|E].
    - exists (k - 1). split; [|lia]. split; [lia|]. split; [right; apply unit_le; lia|left; lia].
    - exists k. split; [|lia]. split; [lia|]. split; [right; apply Qle_refl|right]. pose proof (unit_h k). lra. }
  destruct (L d0 i H0 Hi) as (l & L0 & El). destruct (L d1 j H1 Hj) as (m & L1 & Em).
  destruct (bilinear_ok d0 d1 data (unit_node i) (unit_node j) l m M (R d0 i B0 Hi) (R d1 j B1 Hj) L0 L1) as (r & E & Hr).
  exists r. split; [exact E|]. rewrite Hr. unfold patch. pose proof (unit_h l). pose proof (unit_h m).
  destruct El as [->| ->], Em as [->| ->].
  - assert (unit_node l - unit_node l == 0)%Q as -> by ring. assert (unit_node m - unit_node m == 0)%Q as -> by ring. ring.
  - assert (unit_node l - unit_node l == 0)%Q as -> by ring. rewrite (unit_h m). ring.
  - assert (unit_node m - unit_node m == 0)%Q as -> by ring. rewrite (unit_h l). ring.
  - rewrite (unit_h m), (unit_h l). ring.
Qed.
Print Assumptions C66_bilinear_pixel.
(* ... maps of the form a + b x + c y + e x y are reproduced everywhere, *)
Theorem C66_bilinear_exact : forall d0 d1 data x y a b c e, map_ok d0 d1 data -> 2 <= d0 -> 2 <= d1 -> in_int64 x -> in_int64 y ->
  (forall k m, k < d0 -> m < d1 -> (cell d1 data k m == a + b * unit_node k + c * unit_node m + e * unit_node k * unit_node m)%Q) ->
  exists r, bilinear d0 d1 data x y = Ok r /\ (r == a + b * x + c * y + e * x * y)%Q.
Proof.
  intros d0 d1 data x y a b c e M H0 H1 Hx Hy F.
  destruct (line_exists d0 x H0 (dim_bound d0 d1 data M H1)) as (i & Li).
  destruct (line_exists d1 y H1 (dim_bound' d0 d1 data M H0)) as (j & Lj).
  destruct (bilinear_ok d0 d1 data x y i j M Hx Hy Li Lj) as (r & E & Hr). exists r. split; [exact E|].
  rewrite Hr, (patch_exact _ i j _ _ a b c e unit_node unit_node).
  - rewrite !unit_h. ring.
  - destruct Li as (Li & _), Lj as (Lj & _). intros k m Hk Hm. apply F; lia.
Qed.
Print Assumptions C66_bilinear_exact.
(* ... and inside the map the result is between the smallest and the largest pixel. *)
Theorem C66_bilinear_between : forall d0 d1 data x y lo hi, map_ok d0 d1 data -> 2 <= d0 -> 2 <= d1 ->
  (0 <= x <= unit_node (d0 - 1))%Q -> (0 <= y <= unit_node (d1 - 1))%Q ->
  (forall k m, k < d0 -> m < d1 -> (lo <= cell d1 data k m <= hi)%Q) ->
  exists r, bilinear d0 d1 data x y = Ok r /\ (lo <= r <= hi)%Q.
Proof.
  intros d0 d1 data x y lo hi M H0 H1 Hx Hy F.
  pose proof (dim_bound d0 d1 data M H1) as B0. pose proof (dim_bound' d0 d1 data M H0) as B1.
  assert (forall d t, 2 <= d -> (Z.of_nat d <= two63)%Z -> (0 <= t <= unit_node (d - 1))%Q -> in_int64 t) as R.
  { intros d t Hd B (A & C). unfold in_int64. assert (unit_node (d - 1) < inject_Z two63)%Q by (unfold unit_node; rewrite <- Zlt_Qlt; lia).
    assert (0 <= inject_Z two63)%Q by (unfold two63; discriminate). split; lra. }
  assert (forall d t i, (0 <= t <= unit_node (d - 1))%Q -> line_for d i t -> (0 <= t - unit_node i <= 1)%Q) as G.
  { intros d t i (A & C) (L1 & L2 & L3). split.
    - destruct L2 as [->|L2]; [change (unit_node 0) with 0%Q|]; lra.
    - pose proof (unit_h i). destruct L3 as [L3|L3]; [|lra]. replace (d - 1) with (i + 1) in C by lia. lra. }
  destruct (line_exists d0 x H0 B0) as (i & Li). destruct (line_exists d1 y H1 B1) as (j & Lj).
  destruct (bilinear_ok d0 d1 data x y i j M (R d0 x H0 B0 Hx) (R d1 y H1 B1 Hy) Li Lj) as (r & E & Hr). exists r. split; [exact E|].
  pose proof (patch_between (cell d1 data) i j _ _ lo hi (G d0 x i Hx Li) (G d1 y j Hy Lj)) as P. rewrite Hr. apply P.
  destruct Li as (Li & _), Lj as (Lj & _). intros k m Hk Hm. apply F; lia.
Qed.
Print Assumptions C66_bilinear_between.

(* Finding: the guards subtract 1 and 2 from unsigned dimensions, so a map with a single line is
   read out of bounds at every position, and a map with a single column near its first pixel. *)
Theorem C66_single_line_UB : forall d1 data x y, 1 <= d1 -> length data = d1 -> (Z.of_nat d1 < two63)%Z ->
  in_int64 x -> in_int64 y -> bilinear 1 d1 data x y = UB.
Proof. exact single_line. Qed.
Print Assumptions C66_single_line_UB.
Theorem C66_single_column_UB : forall d0 data x y, 2 <= d0 -> length data = d0 -> (Z.of_nat d0 < two63)%Z ->
  (0 <= x < 1)%Q -> (0 <= y)%Q -> in_int64 y -> bilinear d0 1 data x y = UB.
Proof. exact single_column. Qed.
Print Assumptions C66_single_column_UB.

(* bilinear_strict: the same value for 0 <= x < dims[0]-1 and 0 <= y < dims[1]-1, the default elsewhere *)
Theorem C66_strict : forall d0 d1 data x y def, 1 <= d0 -> 1 <= d1 -> map_ok d0 d1 data -> in_int64 x -> in_int64 y ->
  ((0 <= x < unit_node (d0 - 1))%Q /\ (0 <= y < unit_node (d1 - 1))%Q ->
     bilinear_strict d0 d1 data x y def = bilinear d0 d1 data x y) /\
  (~ ((0 <= x < unit_node (d0 - 1))%Q /\ (0 <= y < unit_node (d1 - 1))%Q) ->
     bilinear_strict d0 d1 data x y def = Ok def).
Proof.
  intros d0 d1 data x y def H0 H1 M Hx Hy. pose proof M as (_ & B).
  split.
  - intros (Ix & Iy). apply strict_inside; assumption.
  - intros N. apply strict_outside; auto; nia.
Qed.
Print Assumptions C66_strict.
(* Finding: so the last line and the last column of the map are treated as if they were outside. *)
Theorem C66_strict_last_refuted : forall d0 d1 data j def, 1 <= d0 -> 1 <= d1 -> map_ok d0 d1 data ->
  (Z.of_nat d0 <= two63)%Z -> (Z.of_nat d1 <= two63)%Z -> j < d1 ->
  bilinear_strict d0 d1 data (unit_node (d0 - 1)) (unit_node j) def = Ok def.
Proof.
  intros d0 d1 data j def H0 H1 M B0 B1 Hj. apply C66_strict; auto.
  - unfold in_int64, unit_node. rewrite <- inject_Z_opp, <- Zle_Qle, <- Zlt_Qlt. split; [unfold two63|]; lia.
  - unfold in_int64, unit_node. rewrite <- inject_Z_opp, <- Zle_Qle, <- Zlt_Qlt. split; [unfold two63|]; lia.
  - intros ((_ & C) & _). lra.
Qed.
Print Assumptions C66_strict_last_refuted.
Example C66_ex_strict_last :
  bilinear_strict 2 2 [5; 6; 7; 8]%Q 1 0 (-9) = Ok (-9)%Q /\
  exists r, bilinear 2 2 [5; 6; 7; 8]%Q 1 0 = Ok r /\ (r == 7)%Q.
Proof. split; [reflexivity|]. eexists. split; [vm_compute; reflexivity|vm_compute; reflexivity]. Qed.

(* With axes: the fraction of the way between the two nodes around x and around y *)
Theorem C66_grid : forall d0 d1 data mx my x y i j u v, map_ok d0 d1 data -> d0 = length mx -> d1 = length my ->
  increasing mx -> increasing my ->
  segment_for mx i x -> fraction mx i x u -> segment_for my j y -> fraction my j y v ->
  in_int64 (unit_node i + u) -> in_int64 (unit_node j + v) ->
  exists r, bilinear_grid d0 d1 data mx my x y = Ok r /\ (r == patch (cell d1 data) i j u v)%Q.
Proof. exact bilinear_grid_ok. Qed.
Print Assumptions C66_grid.
(* ... so between the first and the last nodes it always succeeds, and reproduces
   a + b x + c y + e x y sampled on the axes *)
Theorem C66_grid_exact : forall d0 d1 data mx my x y a b c e, map_ok d0 d1 data -> 2 <= d0 -> 2 <= d1 ->
  d0 = length mx -> d1 = length my -> increasing mx -> increasing my ->
  (node mx 0 <= x <= node mx (d0 - 1))%Q -> (node my 0 <= y <= node my (d1 - 1))%Q ->
  (forall k m, k < d0 -> m < d1 -> (cell d1 data k m == a + b * node mx k + c * node my m + e * node mx k * node my m)%Q) ->
  exists r, bilinear_grid d0 d1 data mx my x y = Ok r /\ (r == a + b * x + c * y + e * x * y)%Q.
Proof.
  intros d0 d1 data mx my x y a b c e M H0 H1 E0 E1 Imx Imy Hx Hy F.
  pose proof (dim_bound d0 d1 data M H1) as B0. pose proof (dim_bound' d0 d1 data M H0) as B1.
  assert (forall m t, increasing m -> 2 <= length m -> (Z.of_nat (length m) <= two63)%Z -> (node m 0 <= t <= node m (length m - 1))%Q ->
    exists i u, segment_for m i t /\ fraction m i t u /\ in_int64 (unit_node i + u) /\ i + 1 < length m) as G.
  { intros m t I L B T. destruct (pick_ok m t (increasing_weak m I) L) as (_ & k & _ & _ & Hk & S).
    pose proof (h_pos m I k ltac:(lia)) as P. exists k, ((t - node m k) / (node m (k + 1) - node m k))%Q.
    split; [exact S|]. split; [unfold fraction; field; apply q_pos_ne; exact P|]. split; [|exact Hk].
    destruct S as (p & q & Np & Nq & S1 & S2).
    assert (p = node m k) as -> by (unfold node; rewrite (nth_error_nth _ _ _ Np); reflexivity).
    assert (q = node m (k + 1)) as -> by (unfold node; rewrite (nth_error_nth _ _ _ Nq); reflexivity).
    assert (0 <= (t - node m k) / (node m (k + 1) - node m k))%Q.
    { apply Qle_shift_div_l; [exact P|]. destruct S1 as [->|S1]; lra. }
    assert ((t - node m k) / (node m (k + 1) - node m k) <= 1)%Q.
    { apply Qle_shift_div_r; [exact P|]. destruct S2 as [S2|S2]; [|lra]. replace (length m - 1) with (k + 1) in T by lia. lra. }
    assert (unit_node k + 1 < inject_Z two63)%Q.
    { unfold unit_node. change 1%Q with (inject_Z 1). rewrite <- inject_Z_plus, <- Zlt_Qlt. lia. }
    assert (0 <= unit_node k)%Q by (change 0%Q with (unit_node 0); apply unit_le; lia).
    assert (0 <= inject_Z two63)%Q by (unfold two63; discriminate).
    unfold in_int64. split; lra. }
  destruct (G mx x Imx ltac:(lia) ltac:(lia)) as (i & u & S & Fu & R & Hi); [subst d0; exact Hx|].
  destruct (G my y Imy ltac:(lia) ltac:(lia)) as (j & v & S' & Fv & R' & Hj); [subst d1; exact Hy|].
  destruct (bilinear_grid_ok d0 d1 data mx my x y i j u v M E0 E1 Imx Imy S Fu S' Fv R R') as (r & E & Hr).
  exists r. split; [exact E|]. rewrite Hr, (patch_exact _ i j u v a b c e (node mx) (node my)).
  - unfold fraction in *. rewrite <- Fu, <- Fv. reflexivity.
  - intros k m Hk Hm. apply F; lia.
Qed.
Print Assumptions C66_grid_exact.
Example C66_ex_grid :
  exists r, bilinear_grid 2 2 [0; 1; 2; 3]%Q [0; 10]%Q [1; 3]%Q 5 2 = Ok r /\ (r == 3#2)%Q.
Proof. eexists. split; [vm_compute; reflexivity|vm_compute; reflexivity]. Qed.
(* axes of the wrong size are refused *)
Theorem C66_grid_sizes : forall d0 d1 data mx my x y xs ys, d0 <> length mx \/ d1 <> length my ->
  bilinear_grid d0 d1 data mx my x y = CheckFail /\ rebin d0 d1 data mx my xs ys = CheckFail.
Proof.
  intros d0 d1 data mx my x y xs ys H. unfold bilinear_grid, rebin.
  destruct (Nat.eqb_spec d0 (length mx)); [|split; reflexivity]. cbn [check obind].
  destruct (Nat.eqb_spec d1 (length my)); [lia|]. split; reflexivity.
Qed.
Print Assumptions C66_grid_sizes.
(* the version for several points evaluates every pair *)
Theorem C66_grid_vec : forall d0 d1 data mx my dims x y F, increasing mx -> increasing my -> 2 <= length mx -> 2 <= length my ->
  d0 = length mx -> d1 = length my -> length x = length y ->
  (forall i a b, nth_error x i = Some a -> nth_error y i = Some b -> bilinear_grid d0 d1 data mx my a b = Ok (F a b)) ->
  exists l, bilinear_grid_vec d0 d1 data mx my dims dims x y = Ok l /\ length l = length x /\
    forall i a b, nth_error x i = Some a -> nth_error y i = Some b -> nth_error l i = Some (F a b).
Proof. exact grid_vec_ok. Qed.
Print Assumptions C66_grid_vec.
Theorem C66_grid_vec_dims : forall d0 d1 data mx my dx dy x y, dx <> dy ->
  bilinear_grid_vec d0 d1 data mx my dx dy x y = CheckFail.
Proof.
  intros d0 d1 data mx my dx dy x y H. unfold bilinear_grid_vec.
  destruct (Nat.eqb_spec d0 (length mx)); [|reflexivity]. destruct (Nat.eqb_spec d1 (length my)); [|reflexivity].
  cbn [check obind]. destruct (list_eq_dec Nat.eq_dec dx dy); [congruence|reflexivity].
Qed.
Print Assumptions C66_grid_vec_dims.

(* rebin: pixel (i, j) of the result is the map at (x[i], y[j]) *)
Theorem C66_rebin : forall d0 d1 data mx my x y F, increasing mx -> increasing my -> 2 <= length mx -> 2 <= length my ->
  d0 = length mx -> d1 = length my ->
  (forall a b, In a x -> In b y -> bilinear_grid d0 d1 data mx my a b = Ok (F a b)) ->
  exists l, rebin d0 d1 data mx my x y = Ok l /\ length l = length x * length y /\
    forall i j a b, nth_error x i = Some a -> nth_error y j = Some b -> nth_error l (i * length y + j) = Some (F a b).
Proof. exact rebin_ok. Qed.
Print Assumptions C66_rebin.
Example C66_ex_rebin :
  exists l, rebin 2 2 [0; 1; 2; 3]%Q [0; 10]%Q [0; 1]%Q [0; 5; 10]%Q [0; 1]%Q = Ok l /\ map Qred l = [0; 1; 1; 2; 2; 3]%Q.
Proof. eexists. split; [vm_compute; reflexivity|vm_compute; reflexivity]. Qed.
