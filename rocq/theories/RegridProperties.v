(* C96: regridding by interpolation.  Every pixel of the destination is projected on the source,
   and receives the value that is interpolated there. *)
From Coq Require Import QArith Qabs Qround Lqa Setoid Lia.
From Verif Require Import Base ImageModel ImageSpec ImageProofs ImageProofs3 GenModel.
From Verif Require SplineProofs4.
From Verif Require Import SplineSpec DrizModel DrizSpec DrizSpec2 DrizProofs DrizProofs7 DrizProofs8 DrizProofs10 DrizProofs11 DrizProofs12 DrizProofs13 RegridModel RegridSpec RegridProofs RegridProofs2.
Local Open Scope Q_scope.

(* Every pixel of the result is the value of the source at the mean of the projected corners of the
   pixel, by the method chosen; times the area of the pixel on the source if flux is conserved. *)
Theorem C96_regrid : forall p s2d larea imgs h w ddims xa ya,
  wf imgs -> fits (nr imgs) (nc imgs) -> enough (how p) imgs -> fits h w ->
  nth_error ddims ya = Some h -> nth_error ddims xa = Some w ->
  ilinearize p = false -> plane_map s2d -> all_moderate s2d h w ->
  exists res K, regrid_interpolate p s2d larea imgs ddims xa ya xa ya = Ok res /\
    resampled (how p) imgs s2d K h w res /\
    (conserve_flux p = false -> forall x y, K x y == 1) /\
    (conserve_flux p = true -> forall x y o, (o = 1 \/ o = -1)%Z ->
       strictly_convex (inject_Z o) (footprint s2d 1 (inject_Z x) (inject_Z y)) ->
       K x y == quad_area (inject_Z o) (footprint s2d 1 (inject_Z x) (inject_Z y))).
Proof.
  intros p s2d larea imgs h w ddims xa ya W F B F' Dy Dx Li Pm Mo.
  destruct (plain_done p s2d larea imgs h w ddims xa ya W F B F' Dy Dx Pm Mo Li) as (res & E & R).
  exists res, (factor p s2d larea). split; [exact E|]. split; [exact R|]. unfold factor. rewrite Li. split; intros C; rewrite C.
  - reflexivity.
  - intros x y o Ho Sc. apply (quad_polyon o Ho); exact Sc.
Qed.
Print Assumptions C96_regrid.
Definition readable (v : img (option Q)) : list (option Z) :=
  map (fun r => match r with Some q => Some (Qfloor (q * 8)) | None => None end) (pix v).
Definition ramp : img (option Q) := Img 3 4 (map (fun k => Some (inject_Z (Z.of_nat k))) (seq 0 12)).
Definition half_right : s2d_map := fun x y => (x + (1#2), y).
(* half a pixel to the right; the last line and the last column are outside *)
Example C96_regrid_ex :
  omap readable (regrid_interpolate (IParams false Linear false) half_right 0 ramp [3; 4]%nat 1 0 1 0)
  = Ok [Some 4; Some 12; Some 20; None; Some 36; Some 44; Some 52; None; None; None; None; None]%Z.
Proof. vm_compute. reflexivity. Qed.
Example C96_nearest_ex :
  omap readable (regrid_interpolate (IParams false Nearest false) half_right 0 ramp [3; 4]%nat 1 0 1 0)
  = Ok [None; None; None; None; Some 40; Some 48; Some 56; None; Some 72; Some 80; Some 88; None]%Z.
Proof. vm_compute. reflexivity. Qed.
Example C96_cubic_ex : exists q,
  omap (fun r => px r 0 0) (regrid_interpolate (IParams false Cubic false) (fun x y => (Qred (x + (3#2)), Qred (y + 1))) 0
    (Img 4 4 (map (fun k => Some (inject_Z (Z.of_nat k))) (seq 0 16))) [1; 1]%nat 1 0 1 0) = Ok (Some (Some q)) /\ q == 11#2.
Proof. eexists. split; [vm_compute; reflexivity|]. apply Qeq_bool_iff. vm_compute. reflexivity. Qed.
(* pixels of half the size: a quarter of the flux *)
Example C96_flux_ex :
  omap readable (regrid_interpolate (IParams true Linear false) (fun x y => (x / 2, y / 2)) 0 ramp [1; 3]%nat 1 0 1 0)
  = Ok [Some 0; Some 1; Some 2]%Z.
Proof. vm_compute. reflexivity. Qed.
Example C96_regrid_moderate_ex : plane_map half_right /\ all_moderate half_right 3 4.
Proof.
  split; [intros x x' y y' E G; unfold half_right, peq; cbn [fst snd]; rewrite E, G; split; reflexivity|].
  intros x y [[H1 H2] [H3 H4]]. unfold place, half_right, footprint, moderate. cbn [map]. unfold qsum. cbn [fold_right fst snd].
  assert (A : 0 <= inject_Z x /\ inject_Z x <= 4 /\ 0 <= inject_Z y /\ inject_Z y <= 4).
  { repeat split; [change 0 with (inject_Z 0)|change 4 with (inject_Z 4)|change 0 with (inject_Z 0)|change 4 with (inject_Z 4)]; rewrite <- Zle_Qle; lia. }
  rewrite big62. repeat split; (apply Qle_shift_div_l || apply Qle_shift_div_r); try reflexivity; lra.
Qed.

(* The same with a linearised projection that is not a translation by whole pixels. *)
Theorem C96_linear : forall p s2d larea imgs h w ddims xa ya,
  wf imgs -> fits (nr imgs) (nc imgs) -> enough (how p) imgs -> fits h w ->
  nth_error ddims ya = Some h -> nth_error ddims xa = Some w -> ilinearize p = true ->
  let cx := inject_Z (Z.of_nat w / 2) in let cy := inject_Z (Z.of_nat h / 2) in
  let c := s2d cx cy in let u := s2d (cx + 1) cy in let v := s2d cx (cy + 1) in
  1 # 1000000 <= Qabs (fst c - inject_Z (qround (fst c))) \/ 1 # 1000000 <= Qabs (snd c - inject_Z (qround (snd c))) \/
  1 # 1000000 <= Qabs (fst u - fst c - 1) \/ 1 # 1000000 <= Qabs (snd v - snd c - 1) \/
  1 # 1000 <= Qabs (snd u - snd c) \/ 1 # 1000 <= Qabs (fst v - fst c) ->
  all_moderate (tangent s2d cx cy) h w ->
  exists res K, regrid_interpolate p s2d larea imgs ddims xa ya xa ya = Ok res /\
    resampled (how p) imgs (tangent s2d cx cy) K h w res /\
    (forall x y, K x y == if conserve_flux p then larea else 1).
Proof.
  intros p s2d larea imgs h w ddims xa ya W F B F' Dy Dx Li cx cy c u v T Mo.
  destruct (linear_done p s2d larea imgs h w ddims xa ya W F B F' Dy Dx Mo Li) as (res & E & R).
  - cbv zeta. fold cx cy. fold c u v. unfold is_translation, qclose. cbn [fst snd]. clear - T.
    destruct T as [T|[T|[T|[T|[T|T]]]]]; apply qlt_false in T; rewrite T; rewrite ?andb_false_r; reflexivity.
  - exists res, (factor p (tangent s2d cx cy) larea). split; [exact E|]. split; [exact R|]. unfold factor. rewrite Li. reflexivity.
Qed.
Print Assumptions C96_linear.
Example C96_linear_ex :
  omap readable (regrid_interpolate (IParams false Linear true) half_right 0 ramp [3; 4]%nat 1 0 1 0)
  = omap readable (regrid_interpolate (IParams false Linear false) half_right 0 ramp [3; 4]%nat 1 0 1 0).
Proof. vm_compute. reflexivity. Qed.

(* For an affine projection the place of a pixel is the projection of its centre. *)
Theorem C96_place : forall s2d x y, affine s2d -> peq (place s2d x y) (s2d (inject_Z x) (inject_Z y)).
Proof. exact affine_place. Qed.
Print Assumptions C96_place.
Example C96_place_ex : affine half_right /\ peq (place half_right 2 1) (5#2, 1).
Proof.
  split; [|split; vm_compute; reflexivity].
  exists 1, 0, (1#2), 0, 1, 0. intros x y. unfold half_right. split; cbn [fst snd]; ring.
Qed.

(* At the centre of a pixel of the source, all methods give its value (or nothing). *)
Theorem C96_on_pixel : forall m v x y i j q, x == inject_Z j -> y == inject_Z i ->
  interpolated m v x y (Some q) -> exists a, px v i j = Some (Some a) /\ q == a.
Proof.
  intros m v x y i j q Ex Ey H.
  assert (Cell : forall t k k', t == inject_Z k -> cell_of t k' -> k' = k).
  { intros t k k' E [A B]. rewrite E in A, B. rewrite <- Zle_Qle in A.
    change 1 with (inject_Z 1) in B. rewrite <- inject_Z_plus, <- Zlt_Qlt in B. lia. }
  destruct m; cbn [interpolated] in H.
  - destruct H as (i' & j' & Ni & Nj & [(_ & P)|(_ & E)]); [|discriminate].
    assert (Nr : forall t k k', t == inject_Z k -> near t k' -> k' = k).
    { intros t k k' E N. unfold near in N. rewrite E in N. apply Qabs_Qle_condition in N. destruct N as [A B].
      assert (inject_Z k' < inject_Z (k + 1)) as L1 by (rewrite inject_Z_plus; change (inject_Z 1) with 1; lra).
      assert (inject_Z k < inject_Z (k' + 1)) as L2 by (rewrite inject_Z_plus; change (inject_Z 1) with 1; lra).
      rewrite <- Zlt_Qlt in L1, L2. lia. }
    rewrite (Nr y i i' Ey Ni), (Nr x j j' Ex Nj) in P. exists q. split; [exact P|reflexivity].
  - destruct H as (i' & j' & Ci & Cj & H). rewrite (Cell y i i' Ey Ci), (Cell x j j' Ex Cj) in H.
    destruct H as [(_ & a & b & c & d & q' & P1 & _ & _ & _ & E & Eq)|[(_ & _ & E)|(_ & E)]]; try discriminate.
    injection E as <-. exists a. split; [exact P1|]. rewrite Eq. unfold mix. rewrite Ex, Ey. ring.
  - destruct H as (i' & j' & Ci & Cj & H). rewrite (Cell y i i' Ey Ci), (Cell x j j' Ex Cj) in H.
    destruct H as [(_ & f & p & q' & P & N1 & N2 & E)|[(_ & _ & E)|(_ & E)]]; try discriminate.
    injection E as <-. exists (f 1%nat 1%nat). split.
    + rewrite <- (P 1%nat 1%nat) by lia. f_equal; lia.
    + assert (G : forall g t r, t == unit_node 1 -> natural_value 3 unit_node g t r -> r == g 1%nat).
      { intros g t r Ht (b & c & d & (T & N) & S).
        apply (SplineProofs4.spline_at_fun 3 unit_node g b c d t); [apply SplineProofs4.unit_ordered|exact S|].
        right. left. exists 1%nat. split; [lia|]. split; [rewrite Ht; apply Qle_refl|]. split; [rewrite Ht; reflexivity|]. unfold cubic. rewrite Ht. ring. }
      assert (U1 : forall t k, t == inject_Z k -> t - inject_Z k + 1 == unit_node 1).
      { intros t k E. rewrite E. unfold unit_node. change (inject_Z (Z.of_nat 1)) with 1. ring. }
      rewrite (G p _ _ (U1 y i Ey) N2). apply (G (f 1%nat) _ _ (U1 x j Ex)). apply N1. lia.
Qed.
Print Assumptions C96_on_pixel.

(* Bilinear interpolation never leaves the range of the image. *)
Theorem C96_between : forall v x y q lo hi,
  (forall i j a, px v i j = Some (Some a) -> lo <= a /\ a <= hi) ->
  interpolated Linear v x y (Some q) -> lo <= q /\ q <= hi.
Proof.
  intros v x y q lo hi H (i & j & [Ci1 Ci2] & [Cj1 Cj2] & C).
  destruct C as [(_ & a & b & c & d & q' & P1 & P2 & P3 & P4 & E & Eq)|[(_ & _ & E)|(_ & E)]]; try discriminate.
  injection E as <-. apply H in P1. apply H in P2. apply H in P3. apply H in P4.
  assert (M : forall u a b, 0 <= u -> u <= 1 -> lo <= a /\ a <= hi -> lo <= b /\ b <= hi -> lo <= mix u a b /\ mix u a b <= hi).
  { clear. intros u a b U1 U2 [A1 A2] [B1 B2]. unfold mix.
    assert (X1 := Qmult_le_0_compat (1 - u) (a - lo)). assert (X2 := Qmult_le_0_compat u (b - lo)).
    assert (X3 := Qmult_le_0_compat (1 - u) (hi - a)). assert (X4 := Qmult_le_0_compat u (hi - b)).
    assert (Y1 : 0 <= (1 - u) * (a - lo)) by (apply X1; lra). assert (Y2 : 0 <= u * (b - lo)) by (apply X2; lra).
    assert (Y3 : 0 <= (1 - u) * (hi - a)) by (apply X3; lra). assert (Y4 : 0 <= u * (hi - b)) by (apply X4; lra).
    split; lra. }
  rewrite Eq. apply M; [lra|lra|apply M; [lra|lra|exact P1|exact P2]|apply M; [lra|lra|exact P3|exact P4]].
Qed.
Print Assumptions C96_between.

(* What a linearised translation by whole pixels does, for images of the same size: the pixel
   (dy, dx) of the result is the central pixel of the source, whereas the projection says that the
   central pixel of the result is the pixel (dy, dx) of the source. *)
Theorem C96_translation : forall p s2d larea imgs h w ddims xa ya dx dy,
  wf imgs -> nr imgs = h -> nc imgs = w -> fits h w -> (Z.of_nat h < two63 - 1)%Z -> (Z.of_nat w < two63 - 1)%Z ->
  nth_error ddims ya = Some h -> nth_error ddims xa = Some w -> ilinearize p = true ->
  (- two63 <= dx < two63)%Z -> (- two63 <= dy < two63)%Z ->
  let cx := inject_Z (Z.of_nat w / 2) in let cy := inject_Z (Z.of_nat h / 2) in
  let c := s2d cx cy in let u := s2d (cx + 1) cy in let v := s2d cx (cy + 1) in
  qround (fst c) = dx -> qround (snd c) = dy ->
  Qabs (fst c - inject_Z dx) < 1 # 1000000 -> Qabs (snd c - inject_Z dy) < 1 # 1000000 ->
  Qabs (fst u - fst c - 1) < 1 # 1000000 -> Qabs (snd v - snd c - 1) < 1 # 1000000 ->
  Qabs (snd u - snd c) < 1 # 1000 -> Qabs (fst v - fst c) < 1 # 1000 ->
  exists res, regrid_interpolate p s2d larea imgs ddims xa ya xa ya = Ok res /\
    shows res h w (fun y x => px_or None imgs (y - dy + Z.of_nat h / 2)%Z (x - dx + Z.of_nat w / 2)%Z).
Proof.
  intros p s2d larea imgs h w ddims xa ya dx dy Wi Eh Ew F Ni Mi Hdy Hdx Li Dx Dy cx cy c u v Ex Ey T1 T2 T3 T4 T5 T6.
  unfold regrid_interpolate, SplineModel.at_. rewrite Hdy, Hdx. cbn [obind].
  rewrite filled_ok by exact F. cbn [obind].
  rewrite Li. rewrite !qn_half. cbv zeta. cbn [andb]. fold cx cy. fold c u v.
  assert (T : is_translation c (fst u - fst c, snd u - snd c) (fst v - fst c, snd v - snd c) = true).
  { unfold is_translation, qclose. cbn [fst snd]. rewrite Ex, Ey.
    rewrite !(proj2 (qlt_spec _ _)) by assumption. reflexivity. }
  rewrite T. rewrite Ex, Ey. rewrite !signed64_id by assumption. cbn [obind nr nc pix]. rewrite repeat_length.
  rewrite !Nat2Z.inj_div. change (Z.of_nat 2) with 2%Z. subst h w.
  set (ny := Z.of_nat (nr imgs)) in *. set (nx := Z.of_nat (nc imgs)) in *.
  set (r0 := (dy - ny / 2)%Z). set (r1 := (dx - nx / 2)%Z).
  assert (E2 : (dy + (ny - 1 - ny / 2))%Z = (r0 + ny - 1)%Z) by (unfold r0; lia).
  assert (E3 : (dx + (nx - 1 - nx / 2))%Z = (r1 + nx - 1)%Z) by (unfold r1; lia).
  rewrite E2, E3. destruct F as (F1 & F2 & F3).
  assert (T64 : two64 = 18446744073709551616%Z) by reflexivity. assert (T63 : two63 = 9223372036854775808%Z) by reflexivity.
  assert (Nn : (0 <= ny /\ 0 <= nx)%Z) by (unfold ny, nx; lia).
  rewrite subregion_ids_spec; [|lia|lia|lia|left; fold ny nx in F3; replace (r0 + ny - 1 - r0 + 1)%Z with ny by lia; replace (r1 + nx - 1 - r1 + 1)%Z with nx by lia; lia].
  cbn [obind]. replace (r1 + nx - 1 - r1 + 1)%Z with nx by lia.
  destruct (copy_back imgs None (nr imgs) (nc imgs) r0 r1 Wi) as (d & Ed & Sd). fold ny nx in Ed |- *. rewrite Ed. cbn [obind].
  eexists. split; [reflexivity|]. destruct Sd as (S1 & S2 & S3 & S4). split; [exact S1|]. split; [exact S2|]. split; [exact S3|].
  intros y x Hy Hx. rewrite (S4 y x Hy Hx). unfold r0, r1. f_equal; lia.
Qed.
Print Assumptions C96_translation.
Definition one_right : s2d_map := fun x y => (x + 1, y).
(* Finding: so a translation goes in the wrong direction when the projection is linearised.  The
   pixel 1 of the second line is at the pixel 2 of the source, whose value is 6. *)
Theorem C96_translation_refuted : exists a b,
  omap readable (regrid_interpolate (IParams false Linear false) one_right 1 ramp [3; 4]%nat 1 0 1 0) = Ok a /\
  omap readable (regrid_interpolate (IParams false Linear true) one_right 1 ramp [3; 4]%nat 1 0 1 0) = Ok b /\
  nth_error a 5 = Some (Some 48%Z) /\ nth_error b 5 = Some (Some 32%Z).
Proof. eexists. eexists. split; [vm_compute; reflexivity|]. split; [vm_compute; reflexivity|]. split; reflexivity. Qed.
Print Assumptions C96_translation_refuted.
(* Finding: and it reads outside of a source that is smaller than the destination. *)
Theorem C96_translation_UB :
  regrid_interpolate (IParams false Linear true) (fun x y => (x, y)) 1 (Img 1 1 [Some 1]) [3; 4]%nat 1 0 1 0 = UB.
Proof. vm_compute. reflexivity. Qed.
Print Assumptions C96_translation_UB.
(* Finding: and takes the pixels of a wider source for those of other lines. *)
Theorem C96_translation_wide_refuted : exists a,
  omap readable (regrid_interpolate (IParams false Linear true) (fun x y => (x, y)) 1 ramp [2; 2]%nat 1 0 1 0) = Ok a /\
  nth_error a 2 = Some (Some 16%Z) /\ px ramp 1 0 = Some (Some 4).
Proof. eexists. split; [vm_compute; reflexivity|]. split; reflexivity. Qed.
Print Assumptions C96_translation_wide_refuted.

(* Finding: the first line and the first column are never the nearest. *)
Theorem C96_first_refuted : forall v x y r, near x 0 \/ near y 0 -> nearest_value v x y r ->
  ~ (x == 1#2) -> ~ (y == 1#2) -> r = None.
Proof.
  intros v x y r N (i & j & Ni & Nj & [((Hi & Hj) & _)|(_ & E)]) Dx Dy; [|exact E]. exfalso.
  assert (G : forall t k, near t 0 -> near t k -> (0 < k)%Z -> t == 1#2).
  { intros t k A B K. unfold near in *. apply Qabs_Qle_condition in A. apply Qabs_Qle_condition in B. change (inject_Z 0) with 0 in A.
    assert (1 <= inject_Z k) by (change 1 with (inject_Z 1); rewrite <- Zle_Qle; lia). lra. }
  destruct N as [N|N]; [apply Dx, (G x j)|apply Dy, (G y i)]; auto; lia.
Qed.
Print Assumptions C96_first_refuted.
Example C96_first_ex : RegridModel.regrid_nearest ramp 0 1 = Ok None /\ px ramp 1 0 = Some (Some 4).
Proof. split; reflexivity. Qed.

(* Finding: the dimensions of the loops are those of the destination along the axes of the source;
   if the two astrometries number their axes differently, the function writes outside the result. *)
Theorem C96_axes_UB :
  regrid_interpolate (IParams false Linear false) (fun x y => (x, y)) 1 ramp [1; 3]%nat 1 0 0 1 = UB.
Proof. vm_compute. reflexivity. Qed.
Print Assumptions C96_axes_UB.
(* Finding: or fills the wrong pixels: here the identity sends the pixel (0, 1) of the source to (1, 0). *)
Theorem C96_axes_refuted : px ramp 1 0 = Some (Some 4) /\
  omap (fun r => match px r 1 0 with Some (Some q) => Some (Qred q) | _ => None end) (regrid_interpolate (IParams false Linear false) (fun x y => (x, y)) 1 ramp [3; 1]%nat 1 0 0 1) = Ok (Some 1).
Proof. split; vm_compute; reflexivity. Qed.
Print Assumptions C96_axes_refuted.
(* Finding: an empty source is read by the bilinear method; a source of a single line by the cubic one. *)
Theorem C96_small_UB :
  regrid_interpolate (IParams false Linear false) (fun x y => (x, y)) 1 (Img 0 0 []) [1; 1]%nat 1 0 1 0 = UB /\
  regrid_interpolate (IParams false Cubic false) (fun x y => (x + 1, y + 1)) 1 (Img 1 4 (repeat (Some 1) 4)) [1; 1]%nat 1 0 1 0 = UB.
Proof. split; vm_compute; reflexivity. Qed.
Print Assumptions C96_small_UB.
