(* Proofs about regridding by interpolation: the loops. *)
From Coq Require Import QArith Qabs Qround Lqa Setoid Lia.
From Verif Require Import Base IndexProofs VecProofs VecProofs2 MatProofs ImageModel ImageSpec ImageProofs ImageProofs3 GenModel.
From Verif Require SplineModel.
From Verif Require Import SplineSpec DrizModel DrizSpec DrizSpec2 DrizProofs8 DrizProofs9 DrizProofs10 DrizProofs11 DrizProofs12 DrizProofs13 RegridModel RegridSpec RegridProofs.
Local Open Scope Q_scope.

Lemma polyon_eq ps ps' : polyeq ps ps' -> polyon_area ps == polyon_area ps'.
Proof.
  intros (a & b & c & d & a' & b' & c' & d' & -> & -> & [A1 A2] & [B1 B2] & [C1 C2] & [D1 D2]).
  cbn [polyon_area fan]. rewrite A1, A2, B1, B2, C1, C2, D1, D2. reflexivity.
Qed.
Lemma mean4 a b c d : (1#4) * (a + b + c + d) == qsum [a; b; c; d] / 4.
Proof. unfold qsum. cbn [fold_right]. field. Qed.

Section Loops.
Variable o : iparams.
Variable s2d : s2d_map.
Variable larea : Q.
Variable imgs : img (option Q).
Variables h w : nat.
Hypothesis s2d_eq : plane_map s2d.
Hypothesis wfi : wf imgs.
Hypothesis fiti : fits (nr imgs) (nc imgs).
Hypothesis big : enough (how o) imgs.
Hypothesis mod_places : all_moderate s2d h w.

Definition factor (x y : Z) : Q :=
  if conserve_flux o then if ilinearize o then larea else polyon_area (footprint s2d 1 (inject_Z x) (inject_Z y)) else 1.
Definition settled (res : img (option Q)) (x y : Z) : Prop :=
  exists p r r', peq p (place s2d x y) /\ interpolated (how o) imgs (fst p) (snd p) r /\ px res y x = Some r' /\ times r (factor x y) r'.

Lemma pixel_settled iy ix yl res : (iy < h)%nat -> (ix < w)%nat -> yl == qn iy - (1#2) -> sized h w res ->
  px res (Z.of_nat iy) (Z.of_nat ix) = Some None ->
  exists res', regrid_pixel o larea imgs (corners s2d w yl) (corners s2d w (qn iy + (1#2))) iy res ix = Ok res' /\
    sized h w res' /\ settled res' (Z.of_nat ix) (Z.of_nat iy) /\
    (forall x y, (x, y) <> (Z.of_nat ix, Z.of_nat iy) -> px res' y x = px res y x).
Proof.
  intros Hy Hx Hyl (S1 & S2 & S3) N. unfold regrid_pixel. rewrite !(corners_get s2d) by lia. cbn [obind].
  set (a := s2d (qn ix - (1#2)) yl). set (b := s2d (qn (ix + 1) - (1#2)) yl).
  set (c := s2d (qn (ix + 1) - (1#2)) (qn iy + (1#2))). set (d := s2d (qn ix - (1#2)) (qn iy + (1#2))).
  assert (Foot : polyeq [a; b; c; d] (footprint s2d 1 (inject_Z (Z.of_nat ix)) (inject_Z (Z.of_nat iy)))).
  { do 8 eexists. split; [reflexivity|]. split; [reflexivity|]. assert (E := qn_S ix). fold (qn ix) (qn iy).
    repeat match goal with |- _ /\ _ => split end; apply s2d_eq; rewrite ?E, ?Hyl; field. }
  set (xps := (1#4) * (fst a + fst b + fst c + fst d)). set (yps := (1#4) * (snd a + snd b + snd c + snd d)).
  assert (Pl : peq (xps, yps) (place s2d (Z.of_nat ix) (Z.of_nat iy))).
  { destruct Foot as (a0 & b0 & c0 & d0 & a' & b' & c' & d' & E & E' & [A1 A2] & [B1 B2] & [C1 C2] & [D1 D2]).
    injection E as <- <- <- <-. unfold place. rewrite E'. unfold peq. cbn [fst snd map]. unfold xps, yps. rewrite !mean4. unfold qsum. cbn [fold_right].
    rewrite A1, A2, B1, B2, C1, C2, D1, D2. split; reflexivity. }
  assert (Mo : moderate (place s2d (Z.of_nat ix) (Z.of_nat iy))) by (apply mod_places; unfold on_image; lia).
  destruct Pl as [Px Py]. cbn [fst snd] in Px, Py. destruct Mo as (M1 & M2 & M3 & M4).
  destruct (sample_ok (how o) imgs xps yps wfi fiti big) as (r & Er & Ir).
  { unfold mod1. rewrite Px. auto. }
  { unfold mod1. rewrite Py. auto. }
  rewrite Er. cbn [obind]. destruct r as [q|].
  - destruct (pset_px res (Z.of_nat iy) (Z.of_nat ix)
      (Some (if conserve_flux o then q * (if ilinearize o then larea else polyon_area [a; b; c; d]) else q)) S3) as (p & Ep & Wp & Pp); [lia|lia|].
    rewrite !Nat2Z.id in Ep. rewrite Ep. cbn [obind]. eexists. split; [reflexivity|]. split; [repeat split; assumption|]. split.
    + exists (xps, yps), (Some q). eexists. split; [split; [exact Px|exact Py]|]. split; [exact Ir|]. split.
      * rewrite Pp. destruct (prod_eq_dec' (Z.of_nat iy, Z.of_nat ix) (Z.of_nat iy, Z.of_nat ix)); [reflexivity|congruence].
      * unfold times, factor. destruct (conserve_flux o); [|ring]. destruct (ilinearize o); [reflexivity|]. rewrite (polyon_eq _ _ Foot). reflexivity.
    + intros x y D. rewrite Pp. destruct (prod_eq_dec' (y, x) (Z.of_nat iy, Z.of_nat ix)) as [E|_]; [|reflexivity]. congruence.
  - exists res. split; [reflexivity|]. split; [repeat split; assumption|]. split; [|reflexivity].
    exists (xps, yps), None, None. split; [split; [exact Px|exact Py]|]. split; [exact Ir|]. split; [exact N|exact I].
Qed.

(* the pixels before (iy, ix) are done, the others are not finite *)
Definition progress (iy ix : nat) (res : img (option Q)) : Prop := sized h w res /\
  forall x y, on_image h w x y ->
    ((y < Z.of_nat iy \/ y = Z.of_nat iy /\ x < Z.of_nat ix)%Z -> settled res x y) /\
    (~ (y < Z.of_nat iy \/ y = Z.of_nat iy /\ x < Z.of_nat ix)%Z -> px res y x = Some None).
Lemma settled_ext res res' x y : px res' y x = px res y x -> settled res x y -> settled res' x y.
Proof. intros E (p & r & r' & A & B & C & D). exists p, r, r'. rewrite E. auto. Qed.
Lemma progress_step iy ix yl res : (iy < h)%nat -> (ix < w)%nat -> yl == qn iy - (1#2) -> progress iy ix res ->
  exists res', regrid_pixel o larea imgs (corners s2d w yl) (corners s2d w (qn iy + (1#2))) iy res ix = Ok res' /\ progress iy (ix + 1) res'.
Proof.
  intros Hy Hx Hyl (S & P). destruct (pixel_settled iy ix yl res Hy Hx Hyl S) as (res' & E & S' & Se & Ot).
  { apply P; [unfold on_image; lia|lia]. }
  exists res'. split; [exact E|]. split; [exact S'|]. intros x y O. destruct (P x y O) as [P1 P2].
  destruct (prod_eq_dec' (x, y) (Z.of_nat ix, Z.of_nat iy)) as [Eq|D].
  - injection Eq as -> ->. split; [intros _; exact Se|]. intros N. exfalso. apply N. right. lia.
  - specialize (Ot x y D). split.
    + intros L. apply (settled_ext res); [exact Ot|]. apply P1. assert (x <> Z.of_nat ix \/ y <> Z.of_nat iy).
      { destruct (Z.eq_dec x (Z.of_nat ix)); [|left; assumption]. right. intros ->. apply D. congruence. }
      lia.
    + intros L. rewrite Ot. apply P2. lia.
Qed.
Lemma row_done iy yl res : (iy < h)%nat -> yl == qn iy - (1#2) -> progress iy 0 res ->
  exists res', regrid_row o s2d larea imgs w (corners s2d w yl, res) iy = Ok (corners s2d w (qn iy + (1#2)), res') /\ progress (iy + 1) 0 res'.
Proof.
  intros Hy Hyl P. unfold regrid_row.
  destruct (ofold_seq_inv (progress iy) (regrid_pixel o larea imgs (corners s2d w yl) (corners s2d w (qn iy + (1#2))) iy) w 0%nat res P) as (res' & E & P').
  { intros k s Hk Pk. apply progress_step; [exact Hy|lia|exact Hyl|exact Pk]. }
  rewrite E. cbn [obind]. exists res'. split; [reflexivity|]. destruct P' as (S & P'). split; [exact S|].
  intros x y O. destruct (P' x y O) as [P1 P2]. unfold on_image in O. split; intros L; [apply P1|apply P2]; lia.
Qed.
Lemma rows_done : forall n y0 yl res, (y0 + n = h)%nat -> yl == qn y0 - (1#2) -> progress y0 0 res ->
  exists pl res', ofold (regrid_row o s2d larea imgs w) (seq y0 n) (corners s2d w yl, res) = Ok (pl, res') /\ progress h 0 res'.
Proof.
  induction n as [|n IH]; intros y0 yl res En Hyl P.
  - eexists _, res. split; [reflexivity|]. rewrite Nat.add_0_r in En. subst y0. exact P.
  - cbn [seq ofold]. destruct (row_done y0 yl res ltac:(lia) Hyl P) as (r1 & E1 & P1). rewrite E1. cbn [obind].
    apply IH; [lia| |rewrite Nat.add_1_r in P1; exact P1]. rewrite <- Nat.add_1_r, qn_S. ring.
Qed.
Lemma loops_done : exists pl res, ofold (regrid_row o s2d larea imgs w) (seq 0 h) (corners s2d w (- (1#2)), Img h w (repeat None (h * w))) = Ok (pl, res) /\
  resampled (how o) imgs s2d factor h w res.
Proof.
  destruct (rows_done h 0%nat (- (1#2)) (Img h w (repeat None (h * w)))) as (pl & res & E & S & P); [reflexivity|reflexivity| |].
  - split.
    + unfold sized, wf. cbn [nr nc pix]. rewrite repeat_length. auto.
    + intros x y O. split; [unfold on_image in O; lia|]. intros _. apply filled_px. exact O.
  - exists pl, res. split; [exact E|]. split; [exact S|]. intros x y O. apply P; [exact O|]. unfold on_image in O. lia.
Qed.
End Loops.

Section Regrid.
Variable o : iparams.
Variable s2d : s2d_map.
Variable larea : Q.
Variable imgs : img (option Q).
Variables h w : nat.
Variables (ddims : list nat) (xa ya : nat).
Hypothesis wfi : wf imgs.
Hypothesis fiti : fits (nr imgs) (nc imgs).
Hypothesis big : enough (how o) imgs.
Hypothesis Hfit : fits h w.
Hypothesis dim_y : nth_error ddims ya = Some h.
Hypothesis dim_x : nth_error ddims xa = Some w.
Lemma plain_done : plane_map s2d -> all_moderate s2d h w -> ilinearize o = false ->
  exists res, regrid_interpolate o s2d larea imgs ddims xa ya xa ya = Ok res /\
    resampled (how o) imgs s2d (factor o s2d larea) h w res.
Proof.
  intros Pm Mo Li. unfold regrid_interpolate, SplineModel.at_. rewrite dim_y, dim_x. cbn [obind]. rewrite filled_ok by exact Hfit. cbn [obind].
  destruct (loops_done o s2d larea imgs h w Pm wfi fiti big Mo) as (pl & res & E & R). rewrite Li. cbn [andb]. rewrite E. cbn [obind].
  exists res. split; [reflexivity|exact R].
Qed.
Definition tang : s2d_map :=
  let csx := inject_Z (Z.of_nat w / 2) in
  let csy := inject_Z (Z.of_nat h / 2) in
  let c := s2d csx csy in
  let minus_c p := (fst p - fst c, snd p - snd c) in
  linear_map csx csy c (minus_c (s2d (csx + 1) csy)) (minus_c (s2d csx (csy + 1))).
Lemma tang_map : plane_map tang.
Proof. intros x x' y y' Ex Ey. unfold tang, linear_map, peq. cbn [fst snd]. rewrite Ex, Ey. split; reflexivity. Qed.
Lemma linear_done : all_moderate tang h w -> ilinearize o = true ->
  (let csx := inject_Z (Z.of_nat w / 2) in let csy := inject_Z (Z.of_nat h / 2) in
   let c := s2d csx csy in
   is_translation c (fst (s2d (csx + 1) csy) - fst c, snd (s2d (csx + 1) csy) - snd c)
     (fst (s2d csx (csy + 1)) - fst c, snd (s2d csx (csy + 1)) - snd c) = false) ->
  exists res, regrid_interpolate o s2d larea imgs ddims xa ya xa ya = Ok res /\
    resampled (how o) imgs tang (factor o tang larea) h w res.
Proof.
  intros Mo Li T. unfold regrid_interpolate, SplineModel.at_. rewrite dim_y, dim_x. cbn [obind]. rewrite filled_ok by exact Hfit. cbn [obind].
  destruct (loops_done o tang larea imgs h w tang_map wfi fiti big Mo) as (pl & res & E & R).
  rewrite Li. rewrite !qn_half. cbv zeta in T |- *. rewrite T. cbn [andb]. unfold tang in E. cbv zeta in E. rewrite E. cbn [obind].
  exists res. split; [reflexivity|exact R].
Qed.
End Regrid.

Lemma affine_place s2d x y : affine s2d -> peq (place s2d x y) (s2d (inject_Z x) (inject_Z y)).
Proof.
  intros (a & b & c & d & e & f & H). unfold place, footprint. cbn [map]. unfold qsum. cbn [fold_right].
  set (X := inject_Z x). set (Y := inject_Z y).
  destruct (H (X - 1 / 2) (Y - 1 / 2)) as [A1 A2]. destruct (H (X + 1 / 2) (Y - 1 / 2)) as [B1 B2].
  destruct (H (X + 1 / 2) (Y + 1 / 2)) as [C1 C2]. destruct (H (X - 1 / 2) (Y + 1 / 2)) as [D1 D2].
  destruct (H X Y) as [E1 E2]. cbn [fst snd] in *. split; cbn [fst snd].
  - rewrite A1, B1, C1, D1, E1. field.
  - rewrite A2, B2, C2, D2, E2. field.
Qed.
