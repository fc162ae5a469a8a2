(* C65: cubic spline interpolation. *)
From Coq Require Import QArith Qabs Qround Lqa Lia.
From Verif Require Import Base IndexProofs OrderModel InterpModel InterpSpec InterpProofs VecProofs VecProofs2 SplineModel SplineSpec SplineProofs SplineProofs2 SplineProofs3 SplineProofs4 SplineProofs5.
Local Open Scope nat_scope.

(* interpolate_3spline(y, t) on the nodes 0, 1, 2, ... is the natural cubic spline through the
   data: it passes through all of them, its first and second derivatives are continuous, its
   second derivative vanishes at both ends, and it continues as a straight line outside. *)
Theorem C65_uniform : forall y, 2 <= length y ->
  exists b c d, natural_spline (length y - 1) unit_node (node y) b c d /\
    forall t, (- inject_Z two63 <= t < inject_Z two63)%Q ->
      exists r, spline_point_u y t = Ok (Some r) /\ spline_at (length y - 1) unit_node (node y) b c d t r.
Proof.
  intros y H. destruct (spline_u_co y H) as (co & b & c & d & E & N & V).
  exists b, c, d. split; [exact N|]. intros t Ht. unfold spline_point_u.
  rewrite (proj2 (Nat.leb_le _ _) H). cbn [check obind]. rewrite E. cbn [obind]. apply V, Ht.
Qed.
Print Assumptions C65_uniform.
Example C65_ex_uniform :
  exists r, spline_point_u [0; 1; 0]%Q (1#2) = Ok (Some r) /\ (r == 11#16)%Q.
Proof. eexists. split; [vm_compute; reflexivity|vm_compute; reflexivity]. Qed.

(* There is only one such curve, so the values are determined by the data. *)
Theorem C65_unique : forall n x y b c d b' c' d', 0 < n -> ordered n x ->
  natural_spline n x y b c d -> natural_spline n x y b' c' d' ->
  forall i, i < n -> (b i == b' i /\ c i == c' i /\ d i == d' i)%Q.
Proof. intros n x y b c d b' c' d' Hn H. apply natural_unique_; [exact Hn|apply ordered_h; exact H]. Qed.
Print Assumptions C65_unique.
Theorem C65_value_unique : forall n x y t r r', 0 < n -> ordered n x ->
  natural_value n x y t r -> natural_value n x y t r' -> (r == r')%Q.
Proof. exact natural_value_fun. Qed.
Print Assumptions C65_value_unique.

(* The uniform version returns the data at the nodes and reproduces straight lines everywhere. *)
Theorem C65_uniform_node : forall y k, 2 <= length y -> k < length y -> (Z.of_nat k < two63)%Z ->
  exists r, spline_point_u y (unit_node k) = Ok (Some r) /\ (r == node y k)%Q.
Proof.
  intros y k H Hk B. destruct (spline_u_ok y (unit_node k) H) as (r & E & b & c & d & N & S).
  - unfold unit_node. rewrite <- inject_Z_opp, <- Zle_Qle, <- Zlt_Qlt. unfold two63 in *. lia.
  - exists r. split; [exact E|]. apply (spline_at_node (length y - 1) unit_node (node y) b c d k r); auto; [apply unit_ordered|apply N|lia].
Qed.
Print Assumptions C65_uniform_node.
Theorem C65_uniform_line : forall y a m t, 2 <= length y -> (- inject_Z two63 <= t < inject_Z two63)%Q ->
  (forall i, i < length y -> (node y i == a + m * unit_node i)%Q) ->
  exists r, spline_point_u y t = Ok (Some r) /\ (r == a + m * t)%Q.
Proof.
  intros y a m t H Ht L. destruct (spline_u_ok y t H Ht) as (r & E & N). exists r. split; [exact E|].
  apply (line_value (length y - 1) unit_node (node y) a m t r); auto; [lia|apply unit_ordered|]. intros i Hi. apply L. lia.
Qed.
Print Assumptions C65_uniform_line.

(* Finding: positions whose integer part is not a 64-bit integer are converted with undefined
   behaviour instead of being extrapolated like the others. *)
Theorem C65_uniform_far_UB : forall y t, 2 <= length y ->
  (t < - inject_Z two63 \/ inject_Z two63 <= t)%Q -> spline_point_u y t = UB.
Proof.
  intros y t H Ht. unfold spline_point_u. rewrite (proj2 (Nat.leb_le _ _) H). cbn [check obind].
  destruct (spline_u_co y H) as (co & b & c & d & E & _). rewrite E. cbn [obind]. unfold sp_eval_u, floor64, signed64.
  pose proof (floor_le t) as F. pose proof (floor_lt t) as F2.
  destruct Ht as [Ht|Ht].
  - assert (inject_Z (Qfloor t) < inject_Z (- two63))%Q as G by (rewrite inject_Z_opp; lra). rewrite <- Zlt_Qlt in G.
    destruct (Z.leb_spec (- two63) (Qfloor t)); [lia|]. reflexivity.
  - assert (inject_Z two63 < inject_Z (Qfloor t + 1))%Q as G by (rewrite inject_Z_plus; change (inject_Z 1) with 1%Q; lra).
    rewrite <- Zlt_Qlt in G. destruct (Z.ltb_spec (Qfloor t) two63); [lia|]. rewrite andb_false_r. reflexivity.
Qed.
Print Assumptions C65_uniform_far_UB.

(* interpolate_3spline(y, x, t) for increasing nodes: the pieces pass through the data with a
   continuous second derivative that vanishes at both ends, and continue as straight lines; the
   two slopes at an inner node differ by (y[i]-y[i-1]) (1/h[i-1] - 1/h[i]). *)
Theorem C65_nonuniform : forall y x, increasing x -> length y = length x -> 2 <= length y ->
  let n := length y - 1 in let X := node x in let Y := node y in
  exists b c d, through n X Y b c d /\ smooth2 n X c d /\
    (forall k, k + 1 < n ->
      (slope (b k) (c k) (d k) (X (k + 1)%nat - X k) - slope (b (k + 1)%nat) (c (k + 1)%nat) (d (k + 1)%nat) 0 ==
       (Y (k + 1)%nat - Y k) / (X (k + 1)%nat - X k) - (Y (k + 1)%nat - Y k) / (X (k + 2)%nat - X (k + 1)%nat))%Q) /\
    forall t, exists r, spline_point y x t = Ok (Some r) /\ spline_at n X Y b c d t r.
Proof.
  intros y x Hx Hl H n X Y. destruct (spline_co y x Hx Hl H) as (co & b & c & d & E & T & S2 & J & V).
  exists b, c, d. split; [exact T|]. split; [exact S2|]. split; [exact J|]. intros t. unfold spline_point.
  rewrite (proj2 (Nat.eqb_eq _ _) Hl), (proj2 (Nat.leb_le _ _) H). cbn [check obind]. rewrite E. cbn [obind]. apply V.
Qed.
Print Assumptions C65_nonuniform.

(* ... so it returns the data at the nodes, *)
Theorem C65_nonuniform_node : forall y x k xk yk, increasing x -> length y = length x -> 2 <= length y ->
  nth_error x k = Some xk -> nth_error y k = Some yk ->
  exists r, spline_point y x xk = Ok (Some r) /\ (r == yk)%Q.
Proof.
  intros y x k xk yk Hx Hl H Nx Ny. destruct (C65_nonuniform y x Hx Hl H) as (b & c & d & T & _ & _ & V).
  destruct (V xk) as (r & E & S). exists r. split; [exact E|].
  assert (k < length x) as Hk by (apply nth_error_Some; congruence).
  assert (xk = node x k) as -> by (unfold node; rewrite (nth_error_nth _ _ _ Nx); reflexivity).
  assert (yk = node y k) as -> by (unfold node; rewrite (nth_error_nth _ _ _ Ny); reflexivity).
  apply (spline_at_node (length y - 1) (node x) (node y) b c d k r); auto; [|lia]. apply increasing_ordered; [exact Hx|lia].
Qed.
Print Assumptions C65_nonuniform_node.
(* ... and it is the natural spline when the nodes are equally spaced. *)
Theorem C65_equal_spacing : forall y x h t, increasing x -> length y = length x -> 2 <= length y ->
  (forall i, i + 1 < length x -> (node x (i + 1) - node x i == h)%Q) ->
  exists r, spline_point y x t = Ok (Some r) /\ natural_value (length y - 1) (node x) (node y) t r.
Proof. intros y x h t Hx Hl H He. exact (spline_equal_spacing y x h Hx Hl H He t). Qed.
Print Assumptions C65_equal_spacing.
Example C65_ex_equal :
  exists r, spline_point [0; 1; 0]%Q [0; 2; 4]%Q 1%Q = Ok (Some r) /\ (r == 11#16)%Q.
Proof. eexists. split; [vm_compute; reflexivity|vm_compute; reflexivity]. Qed.

(* Finding: on nodes that are not equally spaced the result is not a cubic spline.  The right-hand
   side of the system divides y[i]-y[i-1] by h[i] instead of h[i-1]: the curve has kinks at the
   nodes, and even a straight line is not reproduced. *)
Theorem C65_nonuniform_refuted : exists y x t r, increasing x /\ length y = length x /\
  (forall i, i < length y -> (node y i == node x i)%Q) /\ (node x 0 < t < node x 1)%Q /\
  spline_point y x t = Ok (Some r) /\ ~ (r == t)%Q /\
  ~ natural_value (length y - 1) (node x) (node y) t r.
Proof.
  set (l := [0; 1; 3]%Q). exists l, l, (1#2)%Q. eexists.
  assert (increasing l) as I.
  { intros i a b Ha Hb. unfold l in *. do 3 (destruct i as [|i]; [cbn in Ha, Hb; try discriminate; injection Ha as <-; injection Hb as <-; reflexivity|]).
    destruct i; discriminate. }
  split; [exact I|]. split; [reflexivity|]. split; [intros; reflexivity|]. split; [split; reflexivity|].
  split; [vm_compute; reflexivity|]. split; [discriminate|]. intros N.
  pose proof (line_value (length l - 1) (node l) (node l) 0 1 _ _ ltac:(cbn; lia)
    (increasing_ordered (length l - 1) l I eq_refl) ltac:(intros; ring) N) as V. revert V. discriminate.
Qed.
Print Assumptions C65_nonuniform_refuted.
(* ... the slope is continuous at a node only if the neighbouring intervals are equally long or
   the data are constant on the left one. *)
Theorem C65_kink : forall y x, increasing x -> length y = length x -> 2 <= length y ->
  exists b c d, (forall t, exists r, spline_point y x t = Ok (Some r) /\ spline_at (length y - 1) (node x) (node y) b c d t r) /\
    forall k, k + 2 < length y ->
      (slope (b k) (c k) (d k) (node x (k + 1) - node x k) == slope (b (k + 1)%nat) (c (k + 1)%nat) (d (k + 1)%nat) 0)%Q <->
      (node y (k + 1) == node y k \/ node x (k + 1) - node x k == node x (k + 2) - node x (k + 1))%Q.
Proof.
  intros y x Hx Hl H. destruct (C65_nonuniform y x Hx Hl H) as (b & c & d & _ & _ & J & V).
  exists b, c, d. split; [exact V|]. intros k Hk. specialize (J k ltac:(lia)). cbv zeta in J.
  pose proof (h_pos x Hx k ltac:(lia)) as P1. pose proof (h_pos x Hx (k + 1) ltac:(lia)) as P2.
  replace (k + 1 + 1) with (k + 2) in P2 by lia.
  set (s1 := slope (b k) (c k) (d k) _) in *. set (s2 := slope (b (k + 1)) _ _ _) in *. clearbody s1 s2.
  set (h0 := (node x (k + 1) - node x k)%Q) in *. set (h1 := (node x (k + 2) - node x (k + 1))%Q) in *. clearbody h0 h1.
  set (dy := (node y (k + 1) - node y k)%Q) in *.
  assert ((s1 - s2) * (h0 * h1) == dy * (h1 - h0))%Q as K.
  { rewrite J. field. split; apply q_pos_ne; assumption. }
  split.
  - intros E. assert (dy * (h1 - h0) == 0)%Q as Z by (rewrite <- K, E; ring).
    apply Qmult_integral in Z as [Z|Z]; [left; unfold dy in Z; lra|right; lra].
  - intros E. assert (dy * (h1 - h0) == 0)%Q as Z.
    { destruct E as [E|E]; [unfold dy; rewrite E; ring|rewrite E; ring]. }
    rewrite Z in K. apply Qmult_integral in K as [K|K]; [lra|]. apply Qmult_integral in K as [K|K]; lra.
Qed.
Print Assumptions C65_kink.

(* All versions abort on data of different sizes or with fewer than two points. *)
Theorem C65_sizes : forall y x t ts, length y <> length x \/ length y < 2 ->
  spline_point y x t = CheckFail /\ spline_vec y x ts = CheckFail.
Proof.
  intros y x t ts H. unfold spline_point, spline_vec.
  destruct (Nat.eqb_spec (length y) (length x)); [|split; reflexivity]. cbn [check obind].
  destruct (Nat.leb_spec 2 (length y)); [lia|]. split; reflexivity.
Qed.
Print Assumptions C65_sizes.
Theorem C65_sizes_uniform : forall y t ts, length y < 2 ->
  spline_point_u y t = CheckFail /\ spline_vec_u y ts = CheckFail.
Proof.
  intros y t ts H. unfold spline_point_u, spline_vec_u. destruct (Nat.leb_spec 2 (length y)); [lia|]. split; reflexivity.
Qed.
Print Assumptions C65_sizes_uniform.

(* The vector versions are the scalar ones applied to every position. *)
Theorem C65_vec : forall y x ts, increasing x -> length y = length x -> 2 <= length y ->
  spline_vec y x ts = omapl (spline_point y x) ts.
Proof.
  intros y x ts Hx Hl H. destruct (spline_co y x Hx Hl H) as (co & b & c & d & E & _).
  unfold spline_vec, spline_point. rewrite (proj2 (Nat.eqb_eq _ _) Hl), (proj2 (Nat.leb_le _ _) H). cbn [check obind]. rewrite E. cbn [obind].
  reflexivity.
Qed.
Print Assumptions C65_vec.
Theorem C65_vec_uniform : forall y ts, 2 <= length y -> spline_vec_u y ts = omapl (spline_point_u y) ts.
Proof.
  intros y ts H. destruct (spline_u_co y H) as (co & b & c & d & E & _).
  unfold spline_vec_u, spline_point_u. rewrite (proj2 (Nat.leb_le _ _) H). cbn [check obind]. rewrite E. cbn [obind]. reflexivity.
Qed.
Print Assumptions C65_vec_uniform.

(* bicubic_strict in an inner cell: the natural spline across the four values obtained by natural
   splines along the four lines around the point *)
Theorem C65_bicubic : forall d0 d1 data x y def i j,
  length data = d0 * d1 -> (Z.of_nat (d0 * d1) < two64)%Z ->
  1 <= i -> i + 2 < d0 -> 1 <= j -> j + 2 < d1 ->
  (unit_node i <= x < unit_node i + 1)%Q -> (unit_node j <= y < unit_node j + 1)%Q ->
  exists p r, bicubic d0 d1 data x y def = Ok (Some r) /\ length p = 4 /\
    (forall k, k < 4 -> natural_value 3 unit_node (fun m => cell d1 data (i - 1 + k) (j - 1 + m))
                          (y - unit_node j + 1)%Q (node p k)) /\
    natural_value 3 unit_node (node p) (x - unit_node i + 1)%Q r.
Proof. exact bicubic_ok. Qed.
Print Assumptions C65_bicubic.
(* ... which gives the map at its inner pixels and is exact for bilinear maps; *)
Theorem C65_bicubic_node : forall d0 d1 data x y def i j,
  length data = d0 * d1 -> (Z.of_nat (d0 * d1) < two64)%Z ->
  1 <= i -> i + 2 < d0 -> 1 <= j -> j + 2 < d1 -> (x == unit_node i)%Q -> (y == unit_node j)%Q ->
  exists r, bicubic d0 d1 data x y def = Ok (Some r) /\ (r == cell d1 data i j)%Q.
Proof. exact bicubic_node. Qed.
Print Assumptions C65_bicubic_node.
Theorem C65_bicubic_exact : forall d0 d1 data x y def i j a b c e,
  length data = d0 * d1 -> (Z.of_nat (d0 * d1) < two64)%Z ->
  1 <= i -> i + 2 < d0 -> 1 <= j -> j + 2 < d1 ->
  (unit_node i <= x < unit_node i + 1)%Q -> (unit_node j <= y < unit_node j + 1)%Q ->
  (forall k m, k < d0 -> m < d1 -> (cell d1 data k m == a + b * unit_node k + c * unit_node m + e * unit_node k * unit_node m)%Q) ->
  exists r, bicubic d0 d1 data x y def = Ok (Some r) /\ (r == a + b * x + c * y + e * x * y)%Q.
Proof. exact bicubic_exact. Qed.
Print Assumptions C65_bicubic_exact.
(* ... elsewhere it returns the default. *)
Theorem C65_bicubic_default : forall d0 d1 data x y def,
  (- inject_Z two63 <= x < inject_Z two63)%Q -> (- inject_Z two63 <= y < inject_Z two63)%Q ->
  2 <= d0 -> 2 <= d1 -> (Z.of_nat d0 < two64)%Z -> (Z.of_nat d1 < two64)%Z ->
  (x < 1 \/ unit_node (d0 - 2) <= x \/ y < 1 \/ unit_node (d1 - 2) <= y)%Q ->
  bicubic d0 d1 data x y def = Ok (Some def).
Proof. exact bicubic_default. Qed.
Print Assumptions C65_bicubic_default.
Example C65_ex_bicubic :
  exists r, bicubic 4 4 (map (fun k => inject_Z (Z.of_nat (k * k))) (seq 0 16)) (3#2) (1#1) 0 = Ok (Some r) /\ ~ (r == 0)%Q.
Proof. eexists. split; [vm_compute; reflexivity|vm_compute; discriminate]. Qed.

(* Finding: the guard subtracts 2 from an unsigned dimension, so a map with a single line is read
   out of bounds instead of giving the default. *)
Theorem C65_bicubic_single_UB : forall d1 data x y def j, 4 <= d1 -> length data = d1 -> (Z.of_nat d1 < two63)%Z ->
  (1 <= x < 2)%Q -> 1 <= j -> j + 2 < d1 -> (unit_node j <= y < unit_node j + 1)%Q ->
  bicubic 1 d1 data x y def = UB.
Proof. exact bicubic_single. Qed.
Print Assumptions C65_bicubic_single_UB.
