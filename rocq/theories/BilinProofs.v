(* Bilinear interpolation: lemmas. *)
From Coq Require Import QArith Qabs Qfield Qround Lqa Lia.
From Verif Require Import Base IndexProofs OrderModel InterpModel InterpSpec InterpProofs MatModel MatProofs VecProofs VecProofs2
  SplineModel SplineSpec SplineProofs SplineProofs2 SplineProofs3 SplineProofs4 SplineProofs5 BilinModel BilinSpec.
Local Open Scope nat_scope.

Lemma unit_le i j : i <= j -> (unit_node i <= unit_node j)%Q.
Proof. intros H. unfold unit_node. rewrite <- Zle_Qle. lia. Qed.

Lemma line_unique n i j t : line_for n i t -> line_for n j t -> i = j.
Proof.
  assert (G : forall i j, line_for n i t -> line_for n j t -> i < j -> False).
  { intros a b (A1 & A2 & A3) (B1 & B2 & B3) H. destruct A3 as [A3|A3]; [lia|]. destruct B2 as [B2|B2]; [lia|].
    pose proof (unit_le (a + 1) b ltac:(lia)). lra. }
  intros A B. destruct (Nat.lt_trichotomy i j) as [L|[E|L]]; [|exact E|]; exfalso; eauto.
Qed.

Lemma clamp_ok d t : 2 <= d -> (Z.of_nat d <= two63)%Z ->
  exists i, clamp_line d (Qfloor t) = Z.of_nat i /\ line_for d i t.
Proof.
  intros Hd B. pose proof (floor_le t) as F1. pose proof (floor_lt t) as F2. assert (two64 = 2 * two63)%Z as TT by reflexivity.
  unfold clamp_line. destruct (Z.ltb_spec (Qfloor t) 0) as [K|K].
  - exists 0. split; [reflexivity|]. split; [lia|]. split; [left; reflexivity|]. right. change (unit_node (0 + 1)) with 1%Q.
    assert (inject_Z (Qfloor t) <= inject_Z (-1))%Q as A by (rewrite <- Zle_Qle; lia).
    change (inject_Z (-1)) with (-1)%Q in A. lra.
  - rewrite !wrap64_small by lia. destruct (Z.leb_spec (Z.of_nat d - 1) (Qfloor t)) as [L|L].
    + exists (d - 2). split.
      * unfold to_signed64. destruct (Z.ltb_spec (Z.of_nat d - 2) two63); lia.
      * split; [lia|]. split; [|left; lia]. right. eapply Qle_trans; [|exact F1]. unfold unit_node. rewrite <- Zle_Qle. lia.
    + exists (Z.to_nat (Qfloor t)). split; [lia|]. split; [lia|]. split.
      * right. unfold unit_node. rewrite Z2Nat.id by lia. exact F1.
      * right. pose proof (unit_h (Z.to_nat (Qfloor t))) as U. unfold unit_node in *. rewrite Z2Nat.id in U by lia. lra.
Qed.

Lemma bilin4_patch f i j u v : (bilin4 (f i j) (f i (j + 1)%nat) (f (i + 1)%nat j) (f (i + 1)%nat (j + 1)%nat) u v == patch f i j u v)%Q.
Proof. unfold bilin4, patch. ring. Qed.

Lemma corners_ok d0 d1 data i j dx dy : map_ok d0 d1 data -> i + 1 < d0 -> j + 1 < d1 ->
  exists r, corners d1 data (Z.of_nat i) (Z.of_nat j) dx dy = Ok r /\ (r == patch (cell d1 data) i j dx dy)%Q.
Proof.
  intros (L & B) Hi Hj. unfold corners.
  replace (Z.of_nat i + 1)%Z with (Z.of_nat (i + 1)) by lia. replace (Z.of_nat j + 1)%Z with (Z.of_nat (j + 1)) by lia.
  rewrite !(map_at_ok d0) by (auto; lia). cbn [obind]. eexists. split; [reflexivity|]. apply bilin4_patch.
Qed.

Lemma dim_bound a b data : map_ok a b data -> 2 <= b -> (Z.of_nat a <= two63)%Z.
Proof. intros (_ & B) Hb. assert (two64 = 2 * two63)%Z as TT by reflexivity. nia. Qed.
Lemma dim_bound' a b data : map_ok a b data -> 2 <= a -> (Z.of_nat b <= two63)%Z.
Proof. intros (_ & B) Hb. assert (two64 = 2 * two63)%Z as TT by reflexivity. nia. Qed.

Lemma bilinear_ok d0 d1 data x y i j : map_ok d0 d1 data -> in_int64 x -> in_int64 y ->
  line_for d0 i x -> line_for d1 j y ->
  exists r, bilinear d0 d1 data x y = Ok r /\ (r == patch (cell d1 data) i j (x - unit_node i) (y - unit_node j))%Q.
Proof.
  intros M Hx Hy Li Lj. assert (2 <= d0 /\ 2 <= d1) as (H0 & H1) by (destruct Li, Lj; lia).
  unfold bilinear. rewrite (floor64_ok x Hx). cbn [obind]. rewrite (floor64_ok y Hy). cbn [obind].
  destruct (clamp_ok d0 x H0 (dim_bound d0 d1 data M H1)) as (i' & Ei & Li'). pose proof (line_unique _ _ _ _ Li Li'); subst i'.
  destruct (clamp_ok d1 y H1 (dim_bound' d0 d1 data M H0)) as (j' & Ej & Lj'). pose proof (line_unique _ _ _ _ Lj Lj'); subst j'.
  rewrite Ei, Ej. destruct Li, Lj. apply (corners_ok d0); auto.
Qed.

Lemma line_exists d t : 2 <= d -> (Z.of_nat d <= two63)%Z -> exists i, line_for d i t.
Proof. intros H B. destruct (clamp_ok d t H B) as (i & _ & L). exists i. exact L. Qed.

Lemma patch_exact f i j u v a b c e (p q : nat -> Q) :
  (forall k m, (k = i \/ k = i + 1) -> (m = j \/ m = j + 1) -> (f k m == a + b * p k + c * q m + e * p k * q m)%Q) ->
  (patch f i j u v == a + b * (p i + u * (p (i + 1)%nat - p i)) + c * (q j + v * (q (j + 1)%nat - q j)) +
     e * (p i + u * (p (i + 1)%nat - p i)) * (q j + v * (q (j + 1)%nat - q j)))%Q.
Proof. intros H. unfold patch. rewrite !H by auto. ring. Qed.

Lemma patch_between f i j u v lo hi : (0 <= u <= 1)%Q -> (0 <= v <= 1)%Q ->
  (forall k m, (k = i \/ k = i + 1) -> (m = j \/ m = j + 1) -> (lo <= f k m <= hi)%Q) ->
  (lo <= patch f i j u v <= hi)%Q.
Proof.
  intros Hu Hv H. unfold patch.
  assert (forall a b w, (lo <= a <= hi -> lo <= b <= hi -> 0 <= w <= 1 -> lo <= (1 - w) * a + w * b <= hi)%Q) as C.
  { intros a b w Ha Hb Hw. split; nra. }
  apply C; [apply C; auto|apply C; auto|assumption].
Qed.

(* ---------- with explicit axes ---------- *)
Lemma indgen_length n : length (indgen n) = n.
Proof. unfold indgen. rewrite map_length, seq_length. reflexivity. Qed.
Lemma indgen_nth n i : i < n -> nth_error (indgen n) i = Some (unit_node i).
Proof.
  intros H. unfold indgen. rewrite nth_error_map, nth_error_seq. destruct (Nat.ltb_spec i n); [reflexivity|lia].
Qed.

Lemma index_of m t i u : increasing m -> segment_for m i t -> fraction m i t u ->
  exists r, interp_point [length m] [length m] (indgen (length m)) m t = Ok (Some r) /\ (r == unit_node i + u)%Q /\
    line_for (length m) i r.
Proof.
  intros Hm S F. pose proof S as (a & b & Na & Nb & S1 & S2).
  assert (i + 1 < length m) as Hi by (apply nth_error_Some; congruence).
  destruct (interp_point_ok [length m] (indgen (length m)) m t Hm ltac:(lia) (indgen_length _)) as (r & E & k & xa & xb & ya & yb & S' & N1 & N2 & N3 & N4 & O).
  exists r. split; [exact E|]. pose proof (segment_unique m i k t Hm S S'); subst k.
  rewrite indgen_nth in N3, N4 by lia. injection N3 as <-. injection N4 as <-.
  assert (a = node m i) as Ea by (unfold node; rewrite (nth_error_nth _ _ _ Na); reflexivity).
  assert (b = node m (i + 1)) as Eb by (unfold node; rewrite (nth_error_nth _ _ _ Nb); reflexivity).
  rewrite Na in N1; injection N1 as <-. rewrite Nb in N2; injection N2 as <-.
  pose proof (Hm i a b Na Nb) as Hab. unfold fraction in F. rewrite <- Ea, <- Eb in F. unfold on_line in O.
  pose proof (unit_h i) as U. rewrite U in O.
  assert (r == unit_node i + u)%Q as Er.
  { assert ((r - unit_node i - u) * (b - a) == 0)%Q as Z by (rewrite F in O; lra).
    apply Qmult_integral in Z as [Z|Z]; lra. }
  split; [exact Er|]. split; [exact Hi|]. split.
  - destruct S1 as [S1|S1]; [left; exact S1|right]. assert (0 <= u)%Q; [|lra].
    assert (0 <= u * (b - a))%Q by lra. nra.
  - destruct S2 as [S2|S2]; [left; exact S2|right]. assert (u < 1)%Q; [|lra]. nra.
Qed.

Lemma bilinear_grid_ok d0 d1 data mx my x y i j u v : map_ok d0 d1 data -> d0 = length mx -> d1 = length my ->
  increasing mx -> increasing my ->
  segment_for mx i x -> fraction mx i x u -> segment_for my j y -> fraction my j y v ->
  in_int64 (unit_node i + u) -> in_int64 (unit_node j + v) ->
  exists r, bilinear_grid d0 d1 data mx my x y = Ok r /\ (r == patch (cell d1 data) i j u v)%Q.
Proof.
  intros M E0 E1 Hmx Hmy Si Fi Sj Fj Ri Rj. unfold bilinear_grid.
  rewrite (proj2 (Nat.eqb_eq _ _) E0), (proj2 (Nat.eqb_eq _ _) E1). cbn [check obind].
  destruct (index_of mx x i u Hmx Si Fi) as (ux & Eux & Qx & Lx). rewrite Eux. cbn [obind].
  destruct (index_of my y j v Hmy Sj Fj) as (uy & Euy & Qy & Ly). rewrite Euy. cbn [obind bilinear_num].
  rewrite <- E0 in Lx. rewrite <- E1 in Ly.
  destruct (bilinear_ok d0 d1 data ux uy i j M) as (r & Er & Hr); auto.
  - unfold in_int64 in *. rewrite Qx. exact Ri.
  - unfold in_int64 in *. rewrite Qy. exact Rj.
  - exists r. split; [exact Er|]. rewrite Hr. unfold patch. rewrite Qx, Qy. ring.
Qed.

Lemma interp_vec_is m t : increasing m -> 2 <= length m ->
  interp_vec (indgen (length m)) m t = omapl (interp_point [length m] [length m] (indgen (length m)) m) t.
Proof.
  intros H L. rewrite (interp_vec_point [length m]) by apply indgen_length. rewrite indgen_length.
  destruct (Nat.leb_spec 2 (length m)); [reflexivity|lia].
Qed.

Lemma points_ok m : increasing m -> 2 <= length m -> forall ts,
  exists us, interp_vec (indgen (length m)) m ts = Ok us /\ length us = length ts /\
    forall i t, nth_error ts i = Some t -> exists u, nth_error us i = Some u /\
      interp_point [length m] [length m] (indgen (length m)) m t = Ok u.
Proof.
  intros H L ts. rewrite interp_vec_is by assumption.
  set (g := fun t => match interp_point [length m] [length m] (indgen (length m)) m t with Ok o => o | _ => None end).
  exists (map g ts). assert (forall t, interp_point [length m] [length m] (indgen (length m)) m t = Ok (g t)) as G.
  { intros t. unfold g. destruct (interp_point_ok [length m] (indgen (length m)) m t H L (indgen_length _)) as (r & E & _).
    rewrite E. reflexivity. }
  split; [apply omapl_map; auto|]. split; [apply map_length|]. intros i t Ht.
  exists (g t). split; [|apply G]. rewrite nth_error_map, Ht. reflexivity.
Qed.

Lemma fill2_ok {A} (z : A) n m (e : nat -> nat -> outcome A) (f : nat -> nat -> A) :
  (forall a b, a < n -> b < m -> e a b = Ok (f a b)) ->
  exists r, ofold (fun v ix => ofold (fun v iy => z <- e ix iy ;; oset v (ix * m + iy) z) (seq 0 m) v)
    (seq 0 n) (repeat z (n * m)) = Ok r /\ rep n m r f.
Proof.
  intros He.
  destruct (ofold_seq_inv (fun a v => rep n m v (fun i j => if i <? a then f i j else z))
    (fun v ix => ofold (fun v iy => z <- e ix iy ;; oset v (ix * m + iy) z) (seq 0 m) v) n 0 (repeat z (n * m))) as (r & E & R).
  - eapply rep_ext; [apply rep_repeat|]. reflexivity.
  - intros a v Ha R.
    destruct (ofold_seq_inv (fun b v => rep n m v (fun i j => if (i <? a) || ((i =? a) && (j <? b)) then f i j else z))
      (fun v iy => z <- e a iy ;; oset v (a * m + iy) z) m 0 v) as (v' & E & R').
    + eapply rep_ext; [exact R|]. intros i j Hi Hj. cbv beta. destruct (Nat.ltb_spec j 0); [lia|]. rewrite andb_false_r, orb_false_r. reflexivity.
    + intros b v1 Hb R1. rewrite (He a b) by lia. cbn [obind].
      destruct (rep_set n m v1 _ a b (f a b) R1 ltac:(lia) ltac:(lia)) as (v2 & E2 & R2). exists v2. split; [exact E2|].
      eapply rep_ext; [exact R2|]. intros i j Hi Hj. unfold upd2. cbv beta.
      destruct (Nat.eqb_spec i a) as [->|], (Nat.eqb_spec j b) as [->|]; cbn [andb];
        repeat match goal with |- context [?p <? ?q] => destruct (Nat.ltb_spec p q) end; cbn [orb andb]; try lia; reflexivity.
    + exists v'. split; [exact E|]. eapply rep_ext; [exact R'|]. intros i j Hi Hj. cbv beta.
      destruct (Nat.ltb_spec i a), (Nat.eqb_spec i a), (Nat.ltb_spec j (0 + m)), (Nat.ltb_spec i (a + 1)); cbn [orb andb]; try lia; reflexivity.
  - exists r. split; [exact E|]. eapply rep_ext; [exact R|]. intros i j Hi Hj. cbv beta.
    destruct (Nat.ltb_spec i (0 + n)); [reflexivity|lia].
Qed.

Lemma rebin_ok d0 d1 data mx my x y F : increasing mx -> increasing my -> 2 <= length mx -> 2 <= length my ->
  d0 = length mx -> d1 = length my ->
  (forall a b, In a x -> In b y -> bilinear_grid d0 d1 data mx my a b = Ok (F a b)) ->
  exists l, rebin d0 d1 data mx my x y = Ok l /\ length l = length x * length y /\
    forall i j a b, nth_error x i = Some a -> nth_error y j = Some b -> nth_error l (i * length y + j) = Some (F a b).
Proof.
  intros Hmx Hmy L0 L1 E0 E1 HF. unfold rebin.
  rewrite (proj2 (Nat.eqb_eq _ _) E0), (proj2 (Nat.eqb_eq _ _) E1). cbn [check obind].
  destruct (points_ok mx Hmx L0 x) as (ux & Eux & Lux & Gx). rewrite Eux. cbn [obind].
  destruct (points_ok my Hmy L1 y) as (uy & Euy & Luy & Gy). rewrite Euy. cbn [obind].
  destruct (fill2_ok 0%Q (length x) (length y)
    (fun ix iy => a <- oget ux ix ;; b <- oget uy iy ;; bilinear_num d0 d1 data a b)
    (fun ix iy => F (node x ix) (node y iy))) as (r & E & (Lr & R)).
  - intros a b Ha Hb.
    destruct (nth_error x a) as [xa|] eqn:Na; [|apply nth_error_None in Na; lia].
    destruct (nth_error y b) as [yb|] eqn:Nb; [|apply nth_error_None in Nb; lia].
    destruct (Gx a xa Na) as (u & Nu & Pu). destruct (Gy b yb Nb) as (v & Nv & Pv).
    unfold oget. rewrite Nu. cbn [obind]. rewrite Nv. cbn [obind].
    pose proof (HF xa yb (nth_error_In _ _ Na) (nth_error_In _ _ Nb)) as H. unfold bilinear_grid in H.
    rewrite (proj2 (Nat.eqb_eq _ _) E0), (proj2 (Nat.eqb_eq _ _) E1), Pu, Pv in H. cbn [check obind] in H. rewrite H.
    unfold node. rewrite (nth_error_nth _ _ _ Na), (nth_error_nth _ _ _ Nb). reflexivity.
  - exists r. split; [|split; [exact Lr|]].
    + etransitivity; [|exact E]. clear E R Lr.
      assert (forall v ix, ofold (fun v iy => a <- oget ux ix ;; b <- oget uy iy ;; z <- bilinear_num d0 d1 data a b ;; oset v (ix * length y + iy) z) (seq 0 (length y)) v =
        ofold (fun v iy => z <- (a <- oget ux ix ;; b <- oget uy iy ;; bilinear_num d0 d1 data a b) ;; oset v (ix * length y + iy) z) (seq 0 (length y)) v) as G.
      { intros v ix. generalize (seq 0 (length y)) as l. intros l. revert v. induction l as [|iy l IH]; intros v; [reflexivity|]. cbn [ofold].
        destruct (oget ux ix); cbn [obind]; try reflexivity. destruct (oget uy iy); cbn [obind]; try reflexivity.
        destruct (bilinear_num d0 d1 data a a0); cbn [obind]; try reflexivity. destruct (oset v (ix * length y + iy) a1); cbn [obind]; try reflexivity. apply IH. }
      generalize (seq 0 (length x)) (repeat 0%Q (length x * length y)). intros l. induction l as [|ix l IH]; intros v; [reflexivity|].
      cbn [ofold]. rewrite G. destruct (ofold _ _ v); cbn [obind]; try reflexivity. apply IH.
    + intros i j a b Na Nb. assert (i < length x) by (apply nth_error_Some; congruence). assert (j < length y) by (apply nth_error_Some; congruence).
      rewrite R by assumption. unfold node. rewrite (nth_error_nth _ _ _ Na), (nth_error_nth _ _ _ Nb). reflexivity.
Qed.

Lemma grid_vec_ok d0 d1 data mx my dims x y F : increasing mx -> increasing my -> 2 <= length mx -> 2 <= length my ->
  d0 = length mx -> d1 = length my -> length x = length y ->
  (forall i a b, nth_error x i = Some a -> nth_error y i = Some b -> bilinear_grid d0 d1 data mx my a b = Ok (F a b)) ->
  exists l, bilinear_grid_vec d0 d1 data mx my dims dims x y = Ok l /\ length l = length x /\
    forall i a b, nth_error x i = Some a -> nth_error y i = Some b -> nth_error l i = Some (F a b).
Proof.
  intros Hmx Hmy L0 L1 E0 E1 Lxy HF. unfold bilinear_grid_vec.
  rewrite (proj2 (Nat.eqb_eq _ _) E0), (proj2 (Nat.eqb_eq _ _) E1). cbn [check obind].
  destruct (list_eq_dec Nat.eq_dec dims dims); [|congruence]. cbn [check obind].
  destruct (points_ok mx Hmx L0 x) as (ux & Eux & Lux & Gx). rewrite Eux. cbn [obind].
  destruct (points_ok my Hmy L1 y) as (uy & Euy & Luy & Gy). rewrite Euy. cbn [obind].
  set (n := length x).
  destruct (ofold_seq_inv (fun a v => repv n v (fun i => if i <? a then F (node x i) (node y i) else 0%Q))
    (fun v i => a <- oget ux i ;; b <- oget uy i ;; z <- bilinear_num d0 d1 data a b ;; oset v i z) n 0 (repeat 0%Q n)) as (r & E & (Lr & R)).
  - eapply repv_ext; [apply repv_repeat|]. reflexivity.
  - intros k v Hk R.
    destruct (nth_error x k) as [xa|] eqn:Na; [|apply nth_error_None in Na; subst n; lia].
    destruct (nth_error y k) as [yb|] eqn:Nb; [|apply nth_error_None in Nb; subst n; lia].
    destruct (Gx k xa Na) as (u & Nu & Pu). destruct (Gy k yb Nb) as (w & Nv & Pv).
    unfold oget. rewrite Nu. cbn [obind]. rewrite Nv. cbn [obind].
    pose proof (HF k xa yb Na Nb) as H. unfold bilinear_grid in H.
    rewrite (proj2 (Nat.eqb_eq _ _) E0), (proj2 (Nat.eqb_eq _ _) E1), Pu, Pv in H. cbn [check obind] in H. rewrite H. cbn [obind].
    destruct (repv_set n v _ k (F xa yb) R ltac:(lia)) as (v' & E' & R'). exists v'. split; [exact E'|].
    eapply repv_ext; [exact R'|]. intros i Hi. unfold upd1. destruct (Nat.eqb_spec i k) as [->|].
    + destruct (Nat.ltb_spec k (k + 1)); [|lia]. unfold node. rewrite (nth_error_nth _ _ _ Na), (nth_error_nth _ _ _ Nb). reflexivity.
    + destruct (Nat.ltb_spec i k), (Nat.ltb_spec i (k + 1)); try lia; reflexivity.
  - exists r. split; [exact E|]. split; [exact Lr|]. intros i a b Na Nb.
    assert (i < n) as Hi by (apply nth_error_Some; congruence). rewrite R by exact Hi.
    destruct (Nat.ltb_spec i (0 + n)); [|lia]. unfold node. rewrite (nth_error_nth _ _ _ Na), (nth_error_nth _ _ _ Nb). reflexivity.
Qed.

(* ---------- bilinear_strict ---------- *)
Lemma strict_guard d t : 1 <= d -> (Z.of_nat d < two64)%Z ->
  ((Qfloor t <? 0)%Z || (wrap64 (Z.of_nat d - 1) <=? Qfloor t)%Z = false <-> (0 <= t < unit_node (d - 1))%Q).
Proof.
  intros Hd B. rewrite wrap64_small by lia. rewrite orb_false_iff, Z.ltb_ge, Z.leb_gt.
  pose proof (floor_le t) as F1. pose proof (floor_lt t) as F2. unfold unit_node. split.
  - intros (A & C). split.
    + assert (inject_Z 0 <= inject_Z (Qfloor t))%Q as G by (rewrite <- Zle_Qle; lia). change (inject_Z 0) with 0%Q in G. lra.
    + assert (inject_Z (Qfloor t + 1) <= inject_Z (Z.of_nat (d - 1)))%Q as G by (rewrite <- Zle_Qle; lia).
      rewrite inject_Z_plus in G. change (inject_Z 1) with 1%Q in G. lra.
  - intros (A & C). split.
    + change 0%Z with (Qfloor 0). apply Qfloor_resp_le. exact A.
    + assert (inject_Z (Qfloor t) < inject_Z (Z.of_nat (d - 1)))%Q as G by lra. rewrite <- Zlt_Qlt in G. lia.
Qed.

Lemma strict_inside d0 d1 data x y def : 1 <= d0 -> 1 <= d1 -> map_ok d0 d1 data -> in_int64 x -> in_int64 y ->
  (0 <= x < unit_node (d0 - 1))%Q -> (0 <= y < unit_node (d1 - 1))%Q ->
  bilinear_strict d0 d1 data x y def = bilinear d0 d1 data x y.
Proof.
  intros H0 H1 M Hx Hy Ix Iy. pose proof M as (_ & B).
  assert (Z.of_nat d0 < two64)%Z as B0 by nia. assert (Z.of_nat d1 < two64)%Z as B1 by nia.
  unfold bilinear_strict, bilinear. rewrite (floor64_ok x Hx). cbn [obind]. rewrite (floor64_ok y Hy). cbn [obind].
  pose proof (proj2 (strict_guard d0 x H0 B0) Ix) as G0. pose proof (proj2 (strict_guard d1 y H1 B1) Iy) as G1.
  rewrite G0. cbn [orb]. rewrite G1. apply orb_false_iff in G0 as (G0 & G0'). apply orb_false_iff in G1 as (G1 & G1').
  unfold clamp_line. rewrite G0, G0', G1, G1'. reflexivity.
Qed.
Lemma strict_outside d0 d1 data x y def : 1 <= d0 -> 1 <= d1 -> (Z.of_nat d0 < two64)%Z -> (Z.of_nat d1 < two64)%Z ->
  in_int64 x -> in_int64 y ->
  ~ ((0 <= x < unit_node (d0 - 1))%Q /\ (0 <= y < unit_node (d1 - 1))%Q) ->
  bilinear_strict d0 d1 data x y def = Ok def.
Proof.
  intros H0 H1 B0 B1 Hx Hy N. unfold bilinear_strict.
  rewrite (floor64_ok x Hx). cbn [obind]. rewrite (floor64_ok y Hy). cbn [obind].
  pose proof (strict_guard d0 x H0 B0) as G0. pose proof (strict_guard d1 y H1 B1) as G1.
  destruct ((Qfloor x <? 0)%Z || (wrap64 (Z.of_nat d0 - 1) <=? Qfloor x)%Z) eqn:E0; cbn [orb]; [reflexivity|].
  destruct ((Qfloor y <? 0)%Z || (wrap64 (Z.of_nat d1 - 1) <=? Qfloor y)%Z) eqn:E1; [reflexivity|].
  exfalso. apply N. split; [apply G0|apply G1]; reflexivity.
Qed.

(* ---------- maps with a single line or column ---------- *)
Lemma single_line d1 data x y : 1 <= d1 -> length data = d1 -> (Z.of_nat d1 < two63)%Z -> in_int64 x -> in_int64 y ->
  bilinear 1 d1 data x y = UB.
Proof.
  intros H1 L B Hx Hy. assert (two64 = 2 * two63)%Z as TT by reflexivity. assert (two63 = 2 * 4611686018427387904)%Z as T3 by reflexivity.
  unfold bilinear. rewrite (floor64_ok x Hx). cbn [obind]. rewrite (floor64_ok y Hy). cbn [obind].
  assert (exists t, clamp_line d1 (Qfloor y) = t /\ (t = -1 \/ 0 <= t /\ t + 1 < Z.of_nat d1 \/ t = 0 /\ d1 = 1%nat)%Z) as (t & -> & Ht).
  { eexists. split; [reflexivity|]. unfold clamp_line. destruct (Z.ltb_spec (Qfloor y) 0); [lia|].
    rewrite (wrap64_small (Z.of_nat d1 - 1)) by lia. destruct (Z.leb_spec (Z.of_nat d1 - 1) (Qfloor y)); [|lia].
    destruct (Nat.eq_dec d1 1) as [->|]; [left; reflexivity|]. rewrite wrap64_small by lia. unfold to_signed64.
    destruct (Z.ltb_spec (Z.of_nat d1 - 2) two63); lia. }
  set (dy := (y - _)%Q). clearbody dy.
  assert (clamp_line 1 (Qfloor x) = 0 \/ clamp_line 1 (Qfloor x) = -1)%Z as C.
  { unfold clamp_line. destruct (Z.ltb_spec (Qfloor x) 0); [left; reflexivity|]. right.
    change (wrap64 (Z.of_nat 1 - 1)) with 0%Z. destruct (Z.leb_spec 0 (Qfloor x)); [|lia]. reflexivity. }
  set (dx := (x - _)%Q). clearbody dx.
  assert (forall a, map_at d1 data a t = UB \/ exists q, map_at d1 data a t = Ok q) as G.
  { intros a. unfold map_at. destruct (Z.ltb_spec (wrap64 (a * Z.of_nat d1 + t)) (Z.of_nat (length data))) as [Q1|]; [|left; reflexivity].
    unfold oget. destruct (nth_error data (Z.to_nat (wrap64 (a * Z.of_nat d1 + t)))) eqn:E; [right; eexists; reflexivity|left; reflexivity]. }
  assert (forall a t, map_at d1 data a t = UB \/ exists q, map_at d1 data a t = Ok q) as G'.
  { intros a t'. unfold map_at. destruct (Z.ltb_spec (wrap64 (a * Z.of_nat d1 + t')) (Z.of_nat (length data))) as [Q1|]; [|left; reflexivity].
    unfold oget. destruct (nth_error data (Z.to_nat (wrap64 (a * Z.of_nat d1 + t')))) eqn:E; [right; eexists; reflexivity|left; reflexivity]. }
  clear G. unfold corners. destruct C as [->| ->].
  - destruct (G' 0%Z t) as [->|(q1 & ->)]; [reflexivity|]. cbn [obind].
    destruct (G' 0%Z (t + 1)%Z) as [->|(q2 & ->)]; [reflexivity|]. cbn [obind].
    destruct (G' (0 + 1)%Z t) as [->|(q3 & ->)]; [reflexivity|]. cbn [obind].
    assert (map_at d1 data (0 + 1) (t + 1) = UB) as ->; [|reflexivity].
    unfold map_at. rewrite wrap64_small by lia. destruct (Z.ltb_spec ((0 + 1) * Z.of_nat d1 + (t + 1)) (Z.of_nat (length data))); [lia|reflexivity].
  - assert (map_at d1 data (-1) t = UB) as ->; [|reflexivity]. unfold map_at.
    assert (wrap64 (-1 * Z.of_nat d1 + t) = (-1 * Z.of_nat d1 + t) + two64)%Z as ->.
    { unfold wrap64. rewrite <- (Z_mod_plus_full _ 1 two64), Z.mul_1_l. apply Z.mod_small. lia. }
    destruct (Z.ltb_spec (-1 * Z.of_nat d1 + t + two64) (Z.of_nat (length data))); [lia|reflexivity].
Qed.

Lemma single_column d0 data x y : 2 <= d0 -> length data = d0 -> (Z.of_nat d0 < two63)%Z -> (0 <= x < 1)%Q -> (0 <= y)%Q -> in_int64 y ->
  bilinear d0 1 data x y = UB.
Proof.
  intros H1 L B Hx Hy Iy. assert (two64 = 2 * two63)%Z as TT by reflexivity.
  unfold bilinear. rewrite (floor64_is x 0) by (change (inject_Z 0) with 0%Q; lra || (split; [discriminate|reflexivity])). cbn [obind].
  rewrite (floor64_ok y Iy). cbn [obind].
  assert (clamp_line 1 (Qfloor y) = -1)%Z as ->.
  { unfold clamp_line. assert (0 <= Qfloor y)%Z by (change 0%Z with (Qfloor 0); apply Qfloor_resp_le; exact Hy).
    destruct (Z.ltb_spec (Qfloor y) 0); [lia|]. change (wrap64 (Z.of_nat 1 - 1)) with 0%Z. destruct (Z.leb_spec 0 (Qfloor y)); [|lia]. reflexivity. }
  assert (clamp_line d0 0 = 0)%Z as ->.
  { unfold clamp_line. cbn [Z.ltb Z.compare]. rewrite !wrap64_small by lia. destruct (Z.leb_spec (Z.of_nat d0 - 1) 0); [lia|reflexivity]. }
  unfold corners. assert (map_at 1 data 0 (-1) = UB) as ->; [|reflexivity]. unfold map_at.
  change (wrap64 (0 * Z.of_nat 1 + -1)) with (two64 - 1)%Z. destruct (Z.ltb_spec (two64 - 1) (Z.of_nat (length data))); [lia|reflexivity].
Qed.
