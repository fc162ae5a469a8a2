(* C95: regridding by drizzling.  Every pixel of the source is projected on the destination; each
   pixel of the destination receives the part of the flux that corresponds to the area of the
   overlap. *)
From Coq Require Import QArith Qabs Qround Lqa Setoid Lia.
From Verif Require Import Base ImageModel ImageSpec ImageProofs ImageProofs3 GenModel.
From Verif Require Import DrizModel DrizSpec DrizSpec2 DrizProofs DrizProofs2 DrizProofs3 DrizProofs4 DrizProofs5 DrizProofs6 DrizProofs7 DrizProofs8 DrizProofs9 DrizProofs10 DrizProofs11 DrizProofs12 DrizProofs13.
Local Open Scope Q_scope.

(* The polygon obtained by cutting a pixel along the edges of a projection has the area of their
   overlap, for any projection, up to a tolerance of 5 * 2^-52 around the edges. *)
Theorem C95_overlap : forall o ps x y, (o = 1 \/ o = -1)%Z -> ps <> [] ->
  weighs (inject_Z o) ps x y (polyon_area (intersection o ps x y)).
Proof.
  intros o ps x y Ho N.
  destruct (overlap_area o Ho 0 ps x y (Qle_refl 0) N) as (A & HA).
  destruct (overlap_area o Ho eps5 ps x y (Qlt_le_weak _ _ eps5_pos) N) as (B & HB).
  exists A, B. split; [exact HA|]. split; [exact HB|].
  split; [apply (weight_low o Ho ps x y B N HB)|apply (weight_up o Ho ps x y A N HA)].
Qed.
Print Assumptions C95_overlap.
(* a lozenge around (1/2, 0): half of it is in the pixel (0, 0) *)
Example C95_overlap_ex : polyon_area (intersection 1 [(1#2, -(1#4)); (1, 0); (1#2, 1#4); (0, 0)] 0 0) == 1 # 8.
Proof. apply Qeq_bool_iff. vm_compute. reflexivity. Qed.
Example C95_overlap_clockwise_ex :
  polyon_area (intersection (-1) [(0, 0); (1#2, 1#4); (1, 0); (1#2, -(1#4))] 0 0) == 1 # 8.
Proof. apply Qeq_bool_iff. vm_compute. reflexivity. Qed.

(* The area of a region is unique; a smaller region has a smaller area. *)
Theorem C95_area_unique : forall (S T : region) a b A B,
  (forall x y, S x y -> T x y) -> area S a b A -> area T a b B -> 0 <= A /\ A <= B.
Proof.
  intros S T a b A B H HA HB. split; [eapply area_nonneg, HA|eapply area_mono; eassumption].
Qed.
Print Assumptions C95_area_unique.

(* The area that the library computes for a projection is its area, and agrees with the formula of
   Gauss. *)
Theorem C95_area : forall o a b c d y0 y1, (o = 1 \/ o = -1)%Z -> strictly_convex (inject_Z o) [a; b; c; d] ->
  y0 <= y1 -> Forall (fun p => y0 <= snd p /\ snd p <= y1) [a; b; c; d] ->
  area (inside (inject_Z o) [a; b; c; d]) y0 y1 (polyon_area [a; b; c; d]) /\
  polyon_area [a; b; c; d] == quad_area (inject_Z o) [a; b; c; d] /\ 0 < polyon_area [a; b; c; d].
Proof.
  intros o a b c d y0 y1 Ho Sc L H. assert (E := quad_polyon o Ho a b c d Sc).
  split; [apply strict_area; assumption|]. split; [exact E|]. rewrite E. apply (quad_pos o a b c d Sc).
Qed.
Print Assumptions C95_area.
Example C95_area_ex : polyon_area [(0, 0); (3, 1); (2, 3); (-(1), 2)] == 7
  /\ strictly_convex 1 [(0, 0); (3, 1); (2, 3); (-(1), 2)].
Proof. repeat split; vm_compute; reflexivity. Qed.
(* Finding: for a projection that is not convex, it is not. *)
Theorem C95_area_refuted : exists ps, polyon_area ps == 12 /\ quad_area 1 ps == 4.
Proof. exists [(0, 0); (4, 0); (4, 4); (3, 1)]. split; vm_compute; reflexivity. Qed.
Print Assumptions C95_area_refuted.

(* One pixel of the source: no out-of-bounds access; every pixel of the destination receives the
   value of the source times the part of its area that lies in the pixel. *)
Theorem C95_pixel : forall imgs ix iy frac ps o par res wei h w,
  wf imgs -> (iy < nr imgs)%nat -> (ix < nc imgs)%nat ->
  (o = 1 \/ o = -1)%Z -> strictly_convex (inject_Z o) ps -> Forall moderate ps -> par == quad_area (inject_Z o) ps ->
  sized h w res -> sized h w wei -> (Z.of_nat h < two63)%Z -> (Z.of_nat w < two63)%Z ->
  exists res' wei' W, drizzle_pixel imgs ix iy frac ps par (res, wei) = Ok (res', wei') /\
    sized h w res' /\ sized h w wei' /\ spread (inject_Z o) ps h w W /\
    forall x y, on_image h w x y -> exists r r' k k',
      px res y x = Some r /\ px res' y x = Some r' /\ px wei y x = Some k /\ px wei' y x = Some k' /\
      gain (value imgs (iy, ix)) (frac / par) (W (y, x)) r r' k k'.
Proof.
  intros imgs ix iy frac ps o par res wei h w Wi Hy Hx Ho Sc Mo Ep (R1 & R2 & R3) (K1 & K2 & K3) Hh Hw.
  destruct (pget_some imgs iy ix Wi Hy Hx) as (v & Ev & Pv).
  destruct (pixel_ok imgs ix iy v frac ps o par h w (res, wei) Ev Ho Sc) as ([res' wei'] & W & E & (G1 & G2 & G3 & G4 & G5 & G6) & A & S); try assumption.
  - eapply Forall_impl; [|exact Mo]. unfold moderate, small. cbv beta. tauto.
  - repeat split; assumption.
  - cbn [fst snd] in *. exists res', wei', W. split; [exact E|]. split; [repeat split; assumption|]. split; [repeat split; assumption|].
    split; [exact S|]. intros x y O. destruct (A x y O) as (r & r' & k & k' & P1 & P2 & P3 & P4 & G).
    exists r, r', k, k'. unfold value. cbn [fst snd] in *. rewrite Pv. auto.
Qed.
Print Assumptions C95_pixel.
Definition blank (h w : nat) : state := (Img h w (repeat (Some 0) (h * w)), Img h w (repeat 0 (h * w))).
Definition one (v : Q) : img (option Q) := Img 1 1 [Some v].
Definition whole : params := Params 1 false false.
(* a pixel of value 8 at a quarter of a pixel to the right and half a pixel above *)
Example C95_pixel_ex : exists res' wei',
  drizzle_pixel (one 8) 0 0 1 [(-(1#4), 0); (3#4, 0); (3#4, 1); (-(1#4), 1)] 1 (blank 2 2) = Ok (res', wei') /\
  map (fun r => match r with Some q => Qeq_bool q 3 | None => false end) (pix res') = [true; false; true; false] /\
  map (fun k => Qeq_bool k (1#8)) (pix wei') = [false; true; false; true].
Proof. eexists. eexists. split; [vm_compute; reflexivity|]. split; vm_compute; reflexivity. Qed.

(* The weights of a projection that is on the image add up to its area (up to the tolerance). *)
Theorem C95_tiling : forall o ps h w W, (o = 1 \/ o = -1)%Z -> strictly_convex (inject_Z o) ps ->
  in_grid h w ps -> spread (inject_Z o) ps h w W ->
  qsum (map W (zpixels h w)) <= quad_area (inject_Z o) ps /\
  exists T, area (deeper tol (inject_Z o) ps) (- (1#2)) (inject_Z (Z.of_nat h) - (1#2)) T /\ T <= qsum (map W (zpixels h w)).
Proof. intros o ps h w W Ho Sc Ig Sp. rewrite zpixels_dests. apply grid_total; assumption. Qed.
Print Assumptions C95_tiling.
Example C95_tiling_ex : qsum (map (fun p => polyon_area (intersection 1 [(1#2, 0); (1, 1#2); (1#2, 1); (0, 1#2)] (snd p) (fst p))) (zpixels 2 2))
  == quad_area 1 [(1#2, 0); (1, 1#2); (1#2, 1); (0, 1#2)].
Proof. apply Qeq_bool_iff. vm_compute. reflexivity. Qed.

(* Regridding, for any projection of the sky such that the pixels of the source have convex
   projections: succeeds, and every pixel of the result is the weighted mean of what it receives,
   or is not finite if it received nothing, or something that is not finite. *)
Theorem C95_regrid : forall pr s2d larea imgs dh dw o,
  wf imgs -> fits dh dw -> (Z.of_nat dh < two63)%Z -> (Z.of_nat dw < two63)%Z -> (o = 1 \/ o = -1)%Z ->
  linearize pr = false -> plane_map s2d ->
  regular_drops (inject_Z o) (pixfrac pr) (dest_pixfrac pr) s2d (nr imgs) (nc imgs) ->
  exists res wei W, regrid_drizzle pr s2d larea (nr imgs, nc imgs) imgs dh dw = Ok (res, wei) /\
    regridded imgs (inject_Z o) (pixfrac pr) (drop (pixfrac pr) (dest_pixfrac pr) s2d) dh dw W res wei.
Proof.
  intros pr s2d larea imgs dh dw o Wi F Hh Hw Ho Li Pm Reg.
  destruct (regrid_plain pr s2d larea imgs dh dw Wi F Hh Hw o Ho Li Pm Reg) as ([res wei] & W & E & H).
  exists res, wei, W. split; [exact E|]. apply outcome_regridded; assumption.
Qed.
Print Assumptions C95_regrid.
(* two pixels moved by half a pixel to the right, on an image of four columns *)
Definition right_half : s2d_map := fun x y => (Qred (x + (1#2)), Qred y).
(* the two images have these pixels *)
Definition holds (res : list (option Q)) (wei : list Q) (s : state) : bool :=
  (length res =? length (pix (fst s)))%nat && (length wei =? length (pix (snd s)))%nat &&
  forallb (fun p => match p with (Some a, Some b) => Qeq_bool a b | (None, None) => true | _ => false end) (combine res (pix (fst s))) &&
  forallb (fun p => Qeq_bool (fst p) (snd p)) (combine wei (pix (snd s))).
Example C95_regrid_ex : omap (holds [Some 6; Some 4; Some 2; None] [1#2; 1; 1#2; 0]) (regrid_drizzle whole right_half 0 (1, 2)%nat (Img 1 2 [Some 6; Some 2]) 1 4)
  = Ok true.
Proof. vm_compute. reflexivity. Qed.
(* pixels twice as large: the flux is divided by 4; drops of half the size leave holes *)
Definition twice : s2d_map := fun x y => (Qred (2 * x + (1#2)), Qred (2 * y + (1#2))).
Example C95_regrid_twice_ex : omap (holds [Some 2; Some 2; Some 2; Some 2] [1; 1; 1; 1]) (regrid_drizzle whole twice 0 (1, 1)%nat (one 8) 2 2)
  = Ok true.
Proof. vm_compute. reflexivity. Qed.
Example C95_regrid_regular_ex : plane_map twice /\ regular_drops 1 1 false twice 1 1 /\ regular_drops 1 (1#2) true twice 1 1.
Proof.
  split; [intros x x' y y' E F; unfold twice, peq; cbn [fst snd]; rewrite E, F; split; reflexivity|].
  split; intros p [<-|[]]; (split; [repeat split; reflexivity|repeat constructor; discriminate]).
Qed.
Example C95_regrid_drop_ex : omap (holds [Some 2; Some 2; None; Some 2; Some 2; None] [1#4; 1#4; 0; 1#4; 1#4; 0]) (regrid_drizzle (Params (1#2) false false) twice 0 (1, 1)%nat (one 8) 2 3)
  = Ok true.
Proof. vm_compute. reflexivity. Qed.

(* The same with a linearised projection, when it is not a translation by whole pixels, and when
   the product of the lengths of the two axes is the area of the projections. *)
Theorem C95_linear : forall pr s2d larea imgs dh dw o,
  wf imgs -> fits dh dw -> (Z.of_nat dh < two63)%Z -> (Z.of_nat dw < two63)%Z -> (o = 1 \/ o = -1)%Z ->
  linearize pr = true ->
  let cx := inject_Z (Z.of_nat (nc imgs) / 2) in let cy := inject_Z (Z.of_nat (nr imgs) / 2) in
  let c := s2d cx cy in let u := s2d (cx + 1) cy in let v := s2d cx (cy + 1) in
  1 # 1000000 <= Qabs (fst u - fst c - 1) \/ 1 # 1000000 <= Qabs (snd v - snd c - 1) \/
  1 # 1000 <= Qabs (snd u - snd c) \/ 1 # 1000 <= Qabs (fst v - fst c) ->
  regular_drops (inject_Z o) (pixfrac pr) (dest_pixfrac pr) (tangent s2d cx cy) (nr imgs) (nc imgs) ->
  (forall p, In p (pixels (nr imgs) (nc imgs)) -> larea == quad_area (inject_Z o) (drop (pixfrac pr) (dest_pixfrac pr) (tangent s2d cx cy) p)) ->
  exists res wei W, regrid_drizzle pr s2d larea (nr imgs, nc imgs) imgs dh dw = Ok (res, wei) /\
    regridded imgs (inject_Z o) (pixfrac pr) (drop (pixfrac pr) (dest_pixfrac pr) (tangent s2d cx cy)) dh dw W res wei.
Proof.
  intros pr s2d larea imgs dh dw o Wi F Hh Hw Ho Li cx cy c u v T Reg La.
  destruct (regrid_linear pr s2d larea imgs dh dw Wi F Hh Hw o Ho Li) as ([res wei] & W & E & H).
  - cbv zeta. fold cx cy. fold c u v. unfold is_translation, qclose. cbn [fst snd]. clear - T.
    destruct T as [T|[T|[T|T]]]; apply qlt_false in T; rewrite T; rewrite ?andb_false_r; reflexivity.
  - exact Reg.
  - exact La.
  - exists res, wei, W. split; [exact E|]. apply outcome_regridded; assumption.
Qed.
Print Assumptions C95_linear.
Example C95_linear_ex : omap (holds [Some 2; Some 2; Some 2; Some 2] [1; 1; 1; 1]) (regrid_drizzle (Params 1 true false) twice 4 (1, 1)%nat (one 8) 2 2)
  = Ok true.
Proof. vm_compute. reflexivity. Qed.

(* The result never leaves the range of the values that contribute (in units of the flux per pixel
   of the destination). *)
Theorem C95_mean : forall v o f D h w W res wei m M x y a,
  (o = 1 \/ o = -1)%Z -> (forall p, In p (pixels (nr v) (nc v)) -> strictly_convex (inject_Z o) (D p)) ->
  regridded v (inject_Z o) f D h w W res wei -> on_image h w x y -> px res y x = Some (Some a) ->
  (forall p b, In p (pixels (nr v) (nc v)) -> 0 < W p (y, x) -> value v p = Some b ->
     m <= b * (f * f / quad_area (inject_Z o) (D p)) /\ b * (f * f / quad_area (inject_Z o) (D p)) <= M) ->
  m <= a /\ a <= M.
Proof.
  intros v o f D h w W res wei m M x y a Ho Cv R O P B.
  assert (R' := R). destruct R' as (_ & _ & _ & Co). destruct (Co x y O) as (r & a' & k & P1 & P2 & C & Ra).
  rewrite P in P1. injection P1 as <-. destruct r as [r|]; [|contradiction Ra].
  apply (mean_bounds _ r k a m M C Ra).
  - intros b e wt I. eapply (parts_nonneg v o f D h w W res wei Cv R); eassumption.
  - intros b e wt I L. unfold parts in I. apply in_map_iff in I. destruct I as (p & E & I). injection E as E1 <- <-.
    apply (B p b I L E1).
Qed.
Print Assumptions C95_mean.
(* In particular a uniform image remains uniform. *)
Theorem C95_uniform : forall v o f D h w W res wei c x y a,
  (o = 1 \/ o = -1)%Z -> (forall p, In p (pixels (nr v) (nc v)) -> strictly_convex (inject_Z o) (D p)) ->
  regridded v (inject_Z o) f D h w W res wei -> on_image h w x y -> px res y x = Some (Some a) ->
  (forall p b, In p (pixels (nr v) (nc v)) -> value v p = Some b -> b * (f * f / quad_area (inject_Z o) (D p)) == c) -> a == c.
Proof.
  intros v o f D h w W res wei c x y a Ho Cv R O P U.
  destruct (C95_mean v o f D h w W res wei c c x y a Ho Cv R O P) as [L1 L2]; [|lra].
  intros p b I _ E. assert (K := U p b I E). lra.
Qed.
Print Assumptions C95_uniform.
Example C95_uniform_ex : omap (holds [Some 5; Some 5; Some 5] [1#2; 1; 1#2]) (regrid_drizzle whole right_half 0 (1, 2)%nat (Img 1 2 [Some 5; Some 5]) 1 3)
  = Ok true.
Proof. vm_compute. reflexivity. Qed.

(* A pixel that receives nothing is not finite; one that receives a value that is not finite is not
   finite; all the others are finite. *)
Theorem C95_holes : forall v o f D h w W res wei x y,
  (o = 1 \/ o = -1)%Z -> (forall p, In p (pixels (nr v) (nc v)) -> strictly_convex (inject_Z o) (D p)) ->
  regridded v (inject_Z o) f D h w W res wei -> on_image h w x y ->
  ((forall p, In p (pixels (nr v) (nc v)) -> W p (y, x) == 0) -> px res y x = Some None) /\
  ((exists p, In p (pixels (nr v) (nc v)) /\ value v p = None /\ ~ W p (y, x) == 0) -> px res y x = Some None) /\
  ((forall p, In p (pixels (nr v) (nc v)) -> value v p <> None) -> (exists p, In p (pixels (nr v) (nc v)) /\ ~ W p (y, x) == 0) ->
     exists a, px res y x = Some (Some a)).
Proof.
  intros v o f D h w W res wei x y Ho Cv R O. assert (R' := R). destruct R' as (_ & _ & _ & Co).
  destruct (Co x y O) as (r & a & k & P1 & P2 & (K & C) & Ra).
  assert (Kw : qsum (map weight (parts v (inject_Z o) f D W x y)) == qsum (map (fun p => W p (y, x)) (pixels (nr v) (nc v)))).
  { unfold parts. rewrite map_map. reflexivity. }
  rewrite Kw in K. split; [|split].
  - intros Z. rewrite P1. f_equal. destruct a as [a|]; [|reflexivity]. destruct r as [r|]; [|contradiction Ra].
    destruct Ra as [N _]. exfalso. apply N. rewrite K.
    rewrite (qsum_ext _ (fun _ => 0) _ Z). clear. induction (pixels (nr v) (nc v)) as [|p l IH]; [reflexivity|].
    cbn [map]. change (qsum (0 :: map (fun _ => 0) l)) with (0 + qsum (map (fun _ : nat * nat => 0) l)). lra.
  - intros (p & I & V & N). rewrite P1. f_equal. destruct r as [r|].
    + destruct C as [C _]. exfalso. apply N. apply (C (f * f / quad_area (inject_Z o) (D p))). unfold parts.
      rewrite <- V. apply (in_map (fun p => (value v p, f * f / quad_area (inject_Z o) (D p), W p (y, x)))). exact I.
    + destruct a; [contradiction Ra|reflexivity].
  - intros Fi (p & I & N). rewrite P1. destruct a as [a|]; [exists a; reflexivity|]. exfalso. destruct r as [r|].
    + cbn in Ra. apply N. rewrite Ra in K. symmetry in K. apply qsum_zero in K.
      * rewrite Forall_forall in K. apply (K (W p (y, x))). apply (in_map (fun p => W p (y, x))). exact I.
      * apply Forall_forall. intros z Iz. apply in_map_iff in Iz. destruct Iz as (q & <- & Iq). apply (W_nonneg v o f D h w W res wei Cv R q x y Iq O).
    + destruct C as (e & wt & J). unfold parts in J. apply in_map_iff in J. destruct J as (q & E & J). injection E as E _ _. apply (Fi q J E).
Qed.
Print Assumptions C95_holes.
Example C95_holes_ex : omap (holds [None; None; Some 2; None] [1#2; 1; 1#2; 0]) (regrid_drizzle whole right_half 0 (1, 2)%nat (Img 1 2 [None; Some 2]) 1 4)
  = Ok true.
Proof. vm_compute. reflexivity. Qed.

(* Flux is conserved: when all the projections are on the image, the sum of the result times the
   weights is that of the source (times the fraction f^2), up to the tolerance. *)
Theorem C95_flux : forall v o f D h w W res wei,
  (o = 1 \/ o = -1)%Z -> (forall p, In p (pixels (nr v) (nc v)) -> strictly_convex (inject_Z o) (D p)) ->
  regridded v (inject_Z o) f D h w W res wei ->
  (forall p, In p (pixels (nr v) (nc v)) -> exists b, value v p = Some b /\ 0 <= b) ->
  (forall p, In p (pixels (nr v) (nc v)) -> in_grid h w (D p)) ->
  qsum (map (weighted res wei) (zpixels h w)) <= qsum (map (fun p => fin (value v p) * (f * f)) (pixels (nr v) (nc v))) /\
  exists T, (forall p, In p (pixels (nr v) (nc v)) -> area (deeper tol (inject_Z o) (D p)) (- (1#2)) (inject_Z (Z.of_nat h) - (1#2)) (T p)) /\
    qsum (map (fun p => fin (value v p) * (f * f) * (T p / quad_area (inject_Z o) (D p))) (pixels (nr v) (nc v))) <= qsum (map (weighted res wei) (zpixels h w)).
Proof.
  intros v o f D h w W res wei Ho Cv R Va Ig. apply (flux_bounds v o f D h w W res wei Ho Cv R); [|exact Ig|].
  - intros p I E. destruct (Va p I) as (b & Eb & _). congruence.
  - intros p I. destruct (Va p I) as (b & -> & P). exact P.
Qed.
Print Assumptions C95_flux.

(* A linearised translation by whole pixels copies the pixels: the centre of the source goes where
   the projection says, the pixels that receive nothing are not finite. *)
Theorem C95_translation : forall pr s2d larea imgs dh dw dx dy,
  wf imgs -> fits (nr imgs) (nc imgs) -> (Z.of_nat (nr imgs) < two63 - 1)%Z -> (Z.of_nat (nc imgs) < two63 - 1)%Z -> fits dh dw ->
  linearize pr = true -> (- two63 <= dx < two63)%Z -> (- two63 <= dy < two63)%Z ->
  let cx := inject_Z (Z.of_nat (nc imgs) / 2) in let cy := inject_Z (Z.of_nat (nr imgs) / 2) in
  let c := s2d cx cy in let u := s2d (cx + 1) cy in let v := s2d cx (cy + 1) in
  qround (fst c) = dx -> qround (snd c) = dy ->
  Qabs (fst c - inject_Z dx) < 1 # 1000000 -> Qabs (snd c - inject_Z dy) < 1 # 1000000 ->
  Qabs (fst u - fst c - 1) < 1 # 1000000 -> Qabs (snd v - snd c - 1) < 1 # 1000000 ->
  Qabs (snd u - snd c) < 1 # 1000 -> Qabs (fst v - fst c) < 1 # 1000 ->
  exists res wei, regrid_drizzle pr s2d larea (nr imgs, nc imgs) imgs dh dw = Ok (res, wei) /\
    shows res dh dw (fun y x => px_or None imgs (y - dy + Z.of_nat (nr imgs) / 2)%Z (x - dx + Z.of_nat (nc imgs) / 2)%Z) /\
    shows wei dh dw (fun y x => Some (match px imgs (y - dy + Z.of_nat (nr imgs) / 2)%Z (x - dx + Z.of_nat (nc imgs) / 2)%Z with Some _ => 1 | None => 0 end)).
Proof.
  intros pr s2d larea imgs dh dw dx dy Wi Fi Ni Mi F Li Dx Dy cx cy c u v Ex Ey T1 T2 T3 T4 T5 T6.
  unfold regrid_drizzle. cbn [fst snd]. rewrite !Nat.eqb_refl. cbn [andb check obind].
  rewrite filled_ok by exact F. cbn [obind]. rewrite filled_ok by exact F. cbn [obind].
  rewrite Li. rewrite !qn_half. cbv zeta. cbn [andb]. fold cx cy. fold c u v.
  assert (T : is_translation c (fst u - fst c, snd u - snd c) (fst v - fst c, snd v - snd c) = true).
  { unfold is_translation, qclose. cbn [fst snd]. rewrite Ex, Ey.
    rewrite !(proj2 (qlt_spec _ _)) by assumption. reflexivity. }
  rewrite T. rewrite Ex, Ey. rewrite !signed64_id by assumption. cbn [obind nr nc pix]. rewrite repeat_length.
  rewrite !Nat2Z.inj_div. change (Z.of_nat 2) with 2%Z.
  set (ny := Z.of_nat (nr imgs)) in *. set (nx := Z.of_nat (nc imgs)) in *.
  set (r0 := (dy - ny / 2)%Z). set (r1 := (dx - nx / 2)%Z).
  assert (E2 : (dy + (ny - 1 - ny / 2))%Z = (r0 + ny - 1)%Z) by (unfold r0; lia).
  assert (E3 : (dx + (nx - 1 - nx / 2))%Z = (r1 + nx - 1)%Z) by (unfold r1; lia).
  rewrite E2, E3. destruct F as (F1 & F2 & F3). destruct Fi as (Fi1 & Fi2 & Fi3).
  assert (T64 : two64 = 18446744073709551616%Z) by reflexivity. assert (T63 : two63 = 9223372036854775808%Z) by reflexivity.
  assert (Nn : (0 <= ny /\ 0 <= nx)%Z) by (unfold ny, nx; lia).
  rewrite subregion_ids_spec; [|lia|lia|lia|left; fold ny nx in Fi3; replace (r0 + ny - 1 - r0 + 1)%Z with ny by lia; replace (r1 + nx - 1 - r1 + 1)%Z with nx by lia; lia].
  cbn [obind]. replace (r1 + nx - 1 - r1 + 1)%Z with nx by lia.
  destruct (copy_back imgs None dh dw r0 r1 Wi) as (d & Ed & Sd). fold ny nx in Ed. rewrite Ed. cbn [obind].
  destruct (ones_back dh dw (overlap dh dw r0 r1 (r0 + ny - 1) (r1 + nx - 1))) as (d' & Ed' & Sd').
  { intros y x I. apply overlap_in in I. unfold on_image. lia. }
  rewrite Ed'. cbn [obind]. eexists. eexists. split; [reflexivity|]. split.
  - destruct Sd as (S1 & S2 & S3 & S4). split; [exact S1|]. split; [exact S2|]. split; [exact S3|].
    intros y x Hy Hx. rewrite (S4 y x Hy Hx). unfold r0, r1. f_equal; lia.
  - destruct Sd' as (S1 & S2 & S3 & S4). split; [exact S1|]. split; [exact S2|]. split; [exact S3|].
    intros y x Hy Hx. rewrite (S4 y x Hy Hx). f_equal.
    destruct (in_dec prod_eq_dec' (y, x) (overlap dh dw r0 r1 (r0 + ny - 1) (r1 + nx - 1))) as [I|I].
    + apply overlap_in in I. destruct (px_some imgs (y - dy + ny / 2)%Z (x - dx + nx / 2)%Z Wi) as (a & ->); [fold ny; unfold r0 in I; lia|fold nx; unfold r1 in I; lia|reflexivity].
    + rewrite px_out; [reflexivity|]. intros C. apply I. apply overlap_in. fold ny nx in C. unfold r0, r1. lia.
Qed.
Print Assumptions C95_translation.
Example C95_translation_ex : omap (holds [None; Some 6; Some 2; None] [0; 1; 1; 0]) (regrid_drizzle (Params 1 true false) (fun x y => (x + 1, y)) 1 (1, 2)%nat (Img 1 2 [Some 6; Some 2]) 1 4)
  = Ok true.
Proof. vm_compute. reflexivity. Qed.

(* Finding: a rotation by 0.0009 counts as a translation, although pixels at 2000 pixels from the
   centre move by more than one pixel and a half. *)
Theorem C95_rotation_refuted : exists c c1 c2 x y,
  is_translation c c1 c2 = true /\ 3 # 2 < snd (linear_map 0 0 c c1 c2 x y) - (snd c + y) /\ Qabs x <= 2000.
Proof.
  exists (0, 0), (1, 9 # 10000), (-(9 # 10000), 1), 2000, 0. split; [reflexivity|]. split; reflexivity || discriminate.
Qed.
Print Assumptions C95_rotation_refuted.

(* Finding: the bounds of the projection are limited to the image before the test that it is
   contained in one pixel.  A pixel of the source that is larger than the image gives its whole
   area, 16, to the only pixel, whose area is 1. *)
Theorem C95_border_refuted : exists ps res wei k,
  strictly_convex 1 ps /\ drizzle_pixel (one 8) 0 0 1 ps (quad_area 1 ps) (blank 1 1) = Ok (res, wei) /\
  px wei 0 0 = Some k /\ k == 16 /\
  forall A, area (both (in_pixel 0 0) (inside 1 ps)) (-(1#2)) (1#2) A -> A <= 1.
Proof.
  exists [(-(2), -(2)); (2, -(2)); (2, 2); (-(2), 2)]. eexists. eexists. eexists.
  split; [repeat split; reflexivity|]. split; [vm_compute; reflexivity|]. split; [vm_compute; reflexivity|]. split; [apply Qeq_bool_iff; reflexivity|].
  intros A HA.
  assert (P : area (in_pixel 0 0) (-(1#2)) (1#2) 1).
  { eapply area_eq; [reflexivity|reflexivity| |apply (area_strip _ (-(1#2)) (1#2) 0 1)]; [reflexivity|discriminate|].
    intros y Y0 Y1. exists (-(1#2)), (1#2). split; [discriminate|]. split; [ring|]. split; intros x; unfold in_pixel; change (inject_Z 0) with 0; intros; lra. }
  apply (area_mono (both (in_pixel 0 0) (inside 1 [(-(2), -(2)); (2, -(2)); (2, 2); (-(2), 2)])) (in_pixel 0 0) (-(1#2)) (1#2) A 1); [intros x y [I _]; exact I|exact HA|exact P].
Qed.
Print Assumptions C95_border_refuted.

(* Finding: the orientation of a projection is read from its first three corners.  If they are
   aligned, it is taken for clockwise, and the pixel is lost, although the overlap is not empty. *)
Theorem C95_aligned_refuted : exists ps s, convex4 (0, 0) (1, 0) (2, 0) (1, 2) /\ ps = [(0, 0); (1, 0); (2, 0); (1, 2)] /\ polyon_area ps == 2 /\
  drizzle_pixel (one 8) 0 0 1 ps 2 (blank 4 4) = Ok s /\ s = blank 4 4 /\ inside 1 ps 1 1.
Proof.
  eexists. eexists. split; [repeat split; discriminate|]. split; [reflexivity|]. split; [vm_compute; reflexivity|].
  split; [vm_compute; reflexivity|]. split; [vm_compute; reflexivity|].
  intros p q I. cbn [edges path In] in I. destruct I as [E|[E|[E|[E|[]]]]]; injection E as <- <-; reflexivity.
Qed.
Print Assumptions C95_aligned_refuted.
(* Finding: the same happens if two consecutive corners coincide. *)
Theorem C95_coincident_refuted : exists ps s, polyon_area ps == 2 /\
  drizzle_pixel (one 8) 0 0 1 ps 2 (blank 4 4) = Ok s /\ s = blank 4 4.
Proof.
  exists [(0, 0); (2, 0); (1, 2); (1, 2)]. eexists. split; [vm_compute; reflexivity|]. split; vm_compute; reflexivity.
Qed.
Print Assumptions C95_coincident_refuted.

(* Finding: with a linearised projection, the area is not reduced when the drops are: the flux
   comes out four times too small for drops of half the size, although the projection is linear. *)
Theorem C95_linear_drop_refuted :
  omap (holds [Some 2; Some 2; Some 2; Some 2] [1#4; 1#4; 1#4; 1#4]) (regrid_drizzle (Params (1#2) false false) twice 4 (1, 1)%nat (one 8) 2 2) = Ok true /\
  omap (holds [Some (1#2); Some (1#2); Some (1#2); Some (1#2)] [1#4; 1#4; 1#4; 1#4]) (regrid_drizzle (Params (1#2) true false) twice 4 (1, 1)%nat (one 8) 2 2) = Ok true.
Proof. split; vm_compute; reflexivity. Qed.
Print Assumptions C95_linear_drop_refuted.
Definition skewed : s2d_map := fun x y => (Qred (3 * x + 2 * y + 4), Qred (4 * x + 4)).
(* Finding: with axes that are not perpendicular, the product of their lengths is not the area.
   Here the axes are (3, 4) and (2, 0): their lengths 5 and 2 give 10, the area is 8. *)
Theorem C95_skewed_refuted : exists a b,
  omap (fun s => px (fst s) 4 4) (regrid_drizzle (Params 1 false false) skewed 10 (1, 1)%nat (one 80) 9 9) = Ok (Some (Some a)) /\
  omap (fun s => px (fst s) 4 4) (regrid_drizzle (Params 1 true false) skewed 10 (1, 1)%nat (one 80) 9 9) = Ok (Some (Some b)) /\
  a == 10 /\ b == 8.
Proof.
  eexists. eexists. split; [vm_compute; reflexivity|]. split; [vm_compute; reflexivity|].
  split; apply Qeq_bool_iff; vm_compute; reflexivity.
Qed.
Print Assumptions C95_skewed_refuted.

(* Finding: a coordinate that does not fit in an integer is undefined behaviour. *)
Theorem C95_far_UB : exists ps, strictly_convex 1 ps /\ drizzle_pixel (one 8) 0 0 1 ps 1 (blank 1 1) = UB.
Proof.
  exists [(0, 0); (10000000000000000000, 0); (10000000000000000000, 1); (0, 1)]. split; [repeat split; reflexivity|vm_compute; reflexivity].
Qed.
Print Assumptions C95_far_UB.

(* An image whose dimensions are not those of its astrometry stops the program. *)
Theorem C95_dims : forall pr s2d larea imgs dh dw sdims, sdims <> (nr imgs, nc imgs) ->
  regrid_drizzle pr s2d larea sdims imgs dh dw = CheckFail.
Proof.
  intros pr s2d larea imgs dh dw [sh sw] N. unfold regrid_drizzle. cbn [fst snd].
  destruct (Nat.eqb_spec (nr imgs) sh), (Nat.eqb_spec (nc imgs) sw); cbn [andb check obind]; try reflexivity. congruence.
Qed.
Print Assumptions C95_dims.
