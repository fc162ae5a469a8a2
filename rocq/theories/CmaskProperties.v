(* C90: circular masks, radial profiles and masks of regions. *)
From Coq Require Import QArith Qround Lqa ZifyBool ZifyNat.
From Verif Require Import Base IndexModel VecModel ImageModel ImageSpec ImageProofs HullModel HullSpec HullProperties
  CmaskModel CmaskSpec CmaskProofs CmaskProofs2 CmaskProofs3.
Local Open Scope nat_scope.

(* Each pixel of circular_mask is a quarter of the number of its corners inside the circle,
   including for circles that extend out of the image. *)
Theorem C90_mask d0 d1 r x y : fits d0 d1 -> 0 < d0 -> 0 < d1 -> (0 <= r)%Q ->
  (x - r < inject_Z (2 ^ 64))%Q -> (y - r < inject_Z (2 ^ 64))%Q ->
  (0 < x + r /\ 0 < y + r \/ x + r < - (1 # 2) \/ y + r < - (1 # 2))%Q ->
  exists m, circular_mask d0 d1 r x y = Ok m /\ image_is Qeq d0 d1 m (fun i j => (inject_Z (Z.of_nat (corners_in r x y i j)) / 4)%Q).
Proof.
  intros Hf H0 H1 Hr Bx By [(Hx & Hy)|H]; [apply mask_ok; assumption|].
  rewrite mask_empty by (auto; lra). eexists. split; [reflexivity|]. split; [reflexivity|]. split; [reflexivity|]. cbn [pix]. rewrite repeat_length. split; [reflexivity|].
  intros i j Hi Hj. exists 0%Q. split; [apply nth_error_repeat; apply pos_lt; assumption|]. rewrite none_axis; [reflexivity|exact Hr|]. destruct H; lra.
Qed.
Print Assumptions C90_mask.
Theorem C90_mask_negative d0 d1 r x y : fits d0 d1 -> (r < 0)%Q -> circular_mask d0 d1 r x y = CheckFail.
Proof.
  intros Hf Hr. unfold circular_mask. rewrite filled_ok by exact Hf. cbn [obind].
  destruct (Qle_bool 0 r) eqn:E; [apply Qle_bool_iff in E; lra|reflexivity].
Qed.
Print Assumptions C90_mask_negative.
(* Finding: when the circle ends less than half a pixel below the first row or column, the corners of
   these pixels that it contains are ignored. *)
Theorem C90_mask_edge_refuted : exists d0 d1 r x y m, fits d0 d1 /\ (0 <= r)%Q /\ circular_mask d0 d1 r x y = Ok m /\
  nth_error (pix m) 0 = Some 0%Q /\ corners_in r x y 0 0 = 2.
Proof. exists 3, 3, (4 # 5)%Q, (-1)%Q, 0%Q. eexists. split; [unfold fits, two64; lia|]. split; [discriminate|]. split; [reflexivity|]. split; reflexivity. Qed.
Print Assumptions C90_mask_edge_refuted.
(* Finding: without pixels, dims-1 wraps around and the loop writes out of the image. *)
Theorem C90_mask_empty_UB : exists r x y, (0 <= r)%Q /\ circular_mask 0 3 r x y = UB.
Proof. exists 1%Q, 1%Q, 1%Q. split; [discriminate|reflexivity]. Qed.
Print Assumptions C90_mask_empty_UB.
(* Finding: a circle far beyond the last pixels has a first row that no uint_t can hold. *)
Theorem C90_mask_far_UB d0 d1 r x y : fits d0 d1 -> (0 <= r)%Q -> (0 < y + r)%Q -> (inject_Z (2 ^ 64) <= x - r)%Q ->
  circular_mask d0 d1 r x y = UB.
Proof.
  intros Hf Hr Hy H. unfold circular_mask. rewrite filled_ok by exact Hf. cbn [obind].
  rewrite (proj2 (Qle_bool_iff 0 r) Hr). cbn [check obind].
  assert (P : (0 < inject_Z (2 ^ 64))%Q) by reflexivity.
  rewrite (proj2 (qlt_iff _ _)) by lra. rewrite (proj2 (qlt_iff _ _)) by lra. cbn [andb].
  unfold low_bound at 1. cbv zeta. assert (F : (2 ^ 64 <= Qfloor (x - r))%Z). { rewrite <- (Qfloor_Z (2 ^ 64)). apply Qfloor_resp_le. exact H. }
  replace (0 <? Qfloor (x - r))%Z with true by lia. unfold to_uint.
  replace ((0 <=? Qfloor (x - r)) && (Qfloor (x - r) <? 2 ^ 64))%Z with false by lia. reflexivity.
Qed.
Print Assumptions C90_mask_far_UB.

(* A mask around the middle (d0-1)/2 of the rows does not change when the rows are reversed. *)
Theorem C90_symmetric d0 r y i j : i < d0 ->
  corners_in r ((inject_Z (Z.of_nat d0) - 1) / 2) y (d0 - 1 - i) j = corners_in r ((inject_Z (Z.of_nat d0) - 1) / 2) y i j.
Proof. exact (symmetric_row d0 r y i j). Qed.
Print Assumptions C90_symmetric.
(* Finding: the version without centre uses d0/2 instead: its mask is not symmetric, neither for an
   odd nor for an even number of pixels. *)
Theorem C90_middle_refuted : exists r m m', circular_mask_mid 3 3 r = Ok m /\ circular_mask_mid 4 4 r = Ok m' /\
  (exists a b, nth_error (pix m) 0 = Some a /\ nth_error (pix m) 8 = Some b /\ (a == 0)%Q /\ (0 < b)%Q) /\
  (exists a b, nth_error (pix m') 0 = Some a /\ nth_error (pix m') 15 = Some b /\ (a == 0)%Q /\ (0 < b)%Q).
Proof.
  exists (7 # 5)%Q. do 2 eexists. split; [vm_compute; reflexivity|]. split; [vm_compute; reflexivity|]. split; do 2 eexists; (split; [reflexivity|]); (split; [reflexivity|]); split; reflexivity.
Qed.
Print Assumptions C90_middle_refuted.

(* A region with a circle masks the pixels with three or four corners inside. *)
Theorem C90_circle px py rad m : fits (nr m) (nc m) -> 0 < nr m -> 0 < nc m -> length (pix m) = nr m * nc m -> (0 <= rad)%Q ->
  (px - rad < inject_Z (2 ^ 64))%Q -> (py - rad < inject_Z (2 ^ 64))%Q ->
  (0 < px + rad /\ 0 < py + rad \/ px + rad < - (1 # 2) \/ py + rad < - (1 # 2))%Q ->
  exists m', mask_circle px py rad m = Ok m' /\ nr m' = nr m /\ nc m' = nc m /\ length (pix m') = length (pix m) /\
    forall i j b, i < nr m -> j < nc m -> nth_error (pix m) (i * nc m + j) = Some b ->
      exists b', nth_error (pix m') (i * nc m + j) = Some b' /\ (b' = true <-> b = true \/ 3 <= corners_in rad py px i j).
Proof.
  intros Hf H0 H1 Hl Hr Bx By H. destruct (C90_mask (nr m) (nc m) rad py px) as (m0 & E & G); [assumption..| |].
  { destruct H as [[]|[|]]; auto. }
  exact (circle_ok px py rad m m0 E G H0 H1 Hl).
Qed.
Print Assumptions C90_circle.
(* Finding: a circle around the centre of a pixel that contains none of its corners masks nothing,
   though a smaller box with that centre masks the pixel. *)
Theorem C90_small_circle_refuted : exists rad m m' m'', (0 < rad)%Q /\ mask_circle 1 1 rad m = Ok m' /\ ~ In true (pix m') /\
  mask_box (isort (less (box_y 1 10 1 1 1 0) (box_x 1 10 1 1 1 0))) 1 10 1 10 10 1 1 1 0 m = Ok m'' /\ nth_error (pix m'') 4 = Some true.
Proof.
  exists (7 # 10)%Q, (Img 3 3 (repeat false 9)). do 2 eexists. split; [reflexivity|]. split; [vm_compute; reflexivity|]. split; [|split; [vm_compute; reflexivity|reflexivity]].
  cbn [pix]. intros K. vm_compute in K. intuition discriminate.
Qed.
Print Assumptions C90_small_circle_refuted.

(* A region with a box masks the pixels whose centre is in the rectangle. *)
Theorem C90_box st eps s k px py hw hh ca sa m : (0 < s)%Z -> (0 < k)%Z -> (ca * ca + sa * sa = k * k)%Z -> (0 < hw)%Z -> (0 < hh)%Z ->
  (hw + hh + Z.abs px <= s * 2 ^ 62)%Z -> (hw + hh + Z.abs py <= s * 2 ^ 62)%Z ->
  sorts (less (box_y k py hw hh ca sa) (box_x k px hw hh ca sa)) st ->
  0 < nr m -> 0 < nc m -> length (pix m) = nr m * nc m ->
  exists m', mask_box st eps s k px py hw hh ca sa m = Ok m' /\ nr m' = nr m /\ nc m' = nc m /\ length (pix m') = length (pix m) /\
    forall i j b, i < nr m -> j < nc m -> nth_error (pix m) (i * nc m + j) = Some b ->
      exists b', nth_error (pix m') (i * nc m + j) = Some b' /\
        (b' = true <-> b = true \/ in_box s k px py hw hh ca sa (Z.of_nat j) (Z.of_nat i)).
Proof. exact (box_ok st eps s k px py hw hh ca sa m). Qed.
Print Assumptions C90_box.
(* Finding: a box without height also masks pixels beyond its ends. *)
Theorem C90_flat_box_refuted : exists hw m m', (0 < hw)%Z /\
  mask_box (isort (less (box_y 1 2 hw 0 1 0) (box_x 1 2 hw 0 1 0))) 1 2 1 2 2 hw 0 1 0 m = Ok m' /\
  nth_error (pix m) 3 = Some false /\ nth_error (pix m') 3 = Some true /\ ~ in_box 2 1 2 2 hw 0 1 0 0 1.
Proof.
  exists 1%Z, (Img 3 3 (repeat false 9)). eexists. split; [lia|]. split; [reflexivity|]. split; [reflexivity|]. split; [reflexivity|].
  unfold in_box. cbv zeta. lia.
Qed.
Print Assumptions C90_flat_box_refuted.
(* Finding: the corner of a box that is 2^63 pixels away has no int_t. *)
Theorem C90_far_box_UB st eps m : 0 < nr m -> 0 < nc m -> mask_box st eps 1 1 (2 ^ 63) 0 1 1 1 0 m = UB.
Proof. intros H0 H1. unfold mask_box. replace (0 <? nr m * nc m) with true by nia. reflexivity. Qed.
Print Assumptions C90_far_box_UB.

(* The radial profile starts with the central pixel. *)
Theorem C90_profile_first v npix : fits (nr v) (nc v) -> 0 < nr v -> 0 < nc v -> length (pix v) = nr v * nc v ->
  0 < npix -> (Z.of_nat npix < two64)%Z ->
  exists c r, radial_profile v npix = Ok (Some c :: r) /\ length (Some c :: r) = npix /\ nth_error (pix v) (nr v / 2 * nc v + nc v / 2) = Some c.
Proof.
  intros Hf H0 H1 Hl Hn Bn. destruct (profile_ok v npix (fun _ => True)) as (c & r & E & L & C & _); [auto..|].
  exists c, r. cbn [length]. split; [exact E|]. split; [lia|exact C].
Qed.
Print Assumptions C90_profile_first.
(* That of a constant image is constant, with undefined values for the empty rings. *)
Theorem C90_profile_constant v npix c : fits (nr v) (nc v) -> 0 < nr v -> 0 < nc v -> length (pix v) = nr v * nc v ->
  0 < npix -> (Z.of_nat npix < two64)%Z -> (forall a, In a (pix v) -> (a == c)%Q) ->
  exists l, radial_profile v npix = Ok l /\ forall a, In (Some a) l -> (a == c)%Q.
Proof.
  intros Hf H0 H1 Hl Hn Bn HC.
  destruct (profile_ok v npix (fun o => forall a, o = Some a -> (a == c)%Q)) as (c0 & r & E & L & C & F); [assumption..| |].
  - intros mask Lm a E. unfold ratio in E. destruct (Qeq_bool _ 0) eqn:Z; [discriminate|]. injection E as <-.
    rewrite (fold_scale c mask (pix v) Lm HC). field. intros K. rewrite <- Qeq_bool_iff in K. congruence.
  - exists (Some c0 :: r). split; [exact E|]. intros a [I|I]; [injection I as <-; apply HC; exact (nth_error_In _ _ C)|].
    rewrite Forall_forall in F. exact (F _ I a eq_refl).
Qed.
Print Assumptions C90_profile_constant.
(* Finding: radial_profile calls circular_mask with the half sizes as radius and first coordinate and the
   radius of the ring as second coordinate.  The second value of the profile depends on pixels at
   more than 2 pixels of the centre. *)
Theorem C90_profile_refuted : exists v l q, nr v = 5 /\ nc v = 5 /\
  (forall i j, i < 5 -> j < 5 -> ((Z.of_nat i - 2) * (Z.of_nat i - 2) + (Z.of_nat j - 2) * (Z.of_nat j - 2) <= 4)%Z -> nth_error (pix v) (i * 5 + j) = Some 0%Q) /\
  radial_profile v 2 = Ok l /\ nth_error l 1 = Some (Some q) /\ (0 < q)%Q.
Proof.
  exists (Img 5 5 (0%Q :: 1%Q :: repeat 0%Q 23)). do 2 eexists. split; [reflexivity|]. split; [reflexivity|]. split.
  - intros i j Hi Hj H. cbn [pix]. destruct i as [|[|[|[|[|i]]]]]; [..|lia]; destruct j as [|[|[|[|[|j]]]]]; [..|lia| | | | | |lia| | | | | |lia| | | | | |lia| | | | | |lia]; cbn in H; try lia; reflexivity.
  - split; [vm_compute; reflexivity|]. split; [reflexivity|]. reflexivity.
Qed.
Print Assumptions C90_profile_refuted.
(* Finding: the profile of no value aborts instead of being empty. *)
Theorem C90_profile_none_abort v : radial_profile v 0 = CheckFail.
Proof. reflexivity. Qed.
Print Assumptions C90_profile_none_abort.

(* a circle of radius 1 around pixel (1, 1), and one partly out of the image *)
Example C90_example_mask : exists m, circular_mask 3 4 (3 # 2) 1 1 = Ok m /\
  map Qred (pix m) = [(1 # 4); (1 # 2); (1 # 4); 0; (1 # 2); 1; (1 # 2); 0; (1 # 4); (1 # 2); (1 # 4); 0]%Q.
Proof. eexists. split; reflexivity. Qed.
Example C90_example_out : exists m, circular_mask 2 2 1 0 (-1 # 2) = Ok m /\ map Qred (pix m) = [(1 # 2); 0; (1 # 4); 0]%Q.
Proof. eexists. split; [reflexivity|]. vm_compute. reflexivity. Qed.
Example C90_example_far : exists m, circular_mask 2 2 1 7 1 = Ok m /\ map Qred (pix m) = [0; 0; 0; 0]%Q.
Proof. eexists. split; reflexivity. Qed.
(* a box turned by the angle of cosine 3/5; pixel 0 is already masked *)
Example C90_example_box : exists m, mask_box (isort (less (box_y 5 2 2 1 3 4) (box_x 5 2 2 1 3 4))) 1 1 5 2 2 2 1 3 4 (Img 5 5 (true :: repeat false 24)) = Ok m /\
  pix m = [true; false; false; false; false;
           true; true; true; false; false;
           false; true; true; true; false;
           false; false; true; true; true;
           false; false; false; false; false].
Proof. eexists. split; vm_compute; reflexivity. Qed.
Example C90_example_circle : exists m, mask_circle 1 1 (8 # 5) (Img 4 4 (repeat false 16)) = Ok m /\ pix m = [true; true; true; false; true; true; true; false; true; true; true; false; false; false; false; false].
Proof. eexists. split; vm_compute; reflexivity. Qed.
Example C90_example_profile : exists l, radial_profile (Img 3 3 (map (fun i => inject_Z (Z.of_nat i)) (seq 0 9))) 3 = Ok l /\
  map (option_map Qred) l = [Some 4; Some (43 # 10); Some (29 # 6)]%Q.
Proof. eexists. split; vm_compute; reflexivity. Qed.
