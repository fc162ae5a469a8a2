(* Angles on the sky: distances, moves and rotations. *)
From Coq Require Import Reals Lra Lia Psatz.
From Verif Require Import Base SphModel SphSpec SphProofs.
Local Open Scope R_scope.

(* --- distances ---------------------------------------------------------------- *)
(* angdistr is the angle between the two directions, and the only number that is *)
Theorem C120_distance : forall ra1 dec1 ra2 dec2,
  angle_of (direction ra1 dec1) (direction ra2 dec2) (angdistr ra1 dec1 ra2 dec2) /\
  (forall a, angle_of (direction ra1 dec1) (direction ra2 dec2) a -> a = angdistr ra1 dec1 ra2 dec2).
Proof. intros. split; [apply angdistr_angle|]. intros a H. exact (angle_fun _ _ _ _ H (angdistr_angle _ _ _ _)). Qed.
Print Assumptions C120_distance.
Example C120_distance_ex : angdistr 0 0 (PI / 2) 0 = PI / 2 /\ angdistr 0 0 1 (PI / 2) = PI / 2.
Proof.
  pose proof PI_RGT_0. split; symmetry; apply C120_distance; (split; [lra|]); unfold dot, direction; cbn [vx vy vz];
  rewrite ?cos_PI2, ?sin_PI2, ?cos_0, ?sin_0; ring.
Qed.
(* the numbers given to sqrt and asin are in their domains *)
Theorem C120_domain : forall ra1 dec1 ra2 dec2,
  let h := sin (/ 2 * (dec2 - dec1)) * sin (/ 2 * (dec2 - dec1)) + sin (/ 2 * (ra2 - ra1)) * sin (/ 2 * (ra2 - ra1)) * cos dec2 * cos dec1 in
  angdistr ra1 dec1 ra2 dec2 = 2 * asin (sqrt h) /\ 0 <= h /\ 0 <= sqrt h <= 1.
Proof. intros. split; [reflexivity|]. pose proof (hav_range ra1 dec1 ra2 dec2) as H. split; [apply H|]. exact (sqrt_range _ H). Qed.
Print Assumptions C120_domain.
(* angdist is this angle in seconds of arc, for coordinates in degrees *)
Theorem C120_degrees : forall ra1 dec1 ra2 dec2, exists a,
  angle_of (on_sky ra1 dec1) (on_sky ra2 dec2) a /\ angdist ra1 dec1 ra2 dec2 = arcsec a /\ 0 <= angdist ra1 dec1 ra2 dec2 <= 648000.
Proof.
  intros. exists (angdistr (radians ra1) (radians dec1) (radians ra2) (radians dec2)). split; [apply angdistr_angle|].
  rewrite angdist_rad. split; [reflexivity|]. destruct (angdistr_angle (radians ra1) (radians dec1) (radians ra2) (radians dec2)) as [A _].
  set (a := angdistr _ _ _ _) in *. unfold arcsec. pose proof PI_RGT_0 as P.
  assert (K : 0 <= 180 / PI) by (apply Rlt_le, Rdiv_lt_0_compat; lra). assert (E1 : PI * (180 / PI) = 180) by (field; lra).
  pose proof (Rmult_le_compat_r (180 / PI) a PI K (proj2 A)) as U1. pose proof (Rmult_le_compat_r (180 / PI) 0 a K (proj1 A)) as U2.
  replace (a * 180 / PI) with (a * (180 / PI)) by (field; lra). lra.
Qed.
Print Assumptions C120_degrees.
Example C120_degrees_ex : angdist 10 0 10 1 = 3600.
Proof.
  destruct (C120_degrees 10 0 10 1) as (a & A & -> & _). rewrite <- (arcsec_rad 1) || idtac.
  assert (E : a = radians 1).
  { apply (angle_fun _ _ _ _ A). pose proof PI_RGT_0. split; [unfold radians; split; lra|]. rewrite on_sky_meridian. f_equal. unfold radians. field. }
  rewrite E. rewrite arcsec_rad. ring.
Qed.
Theorem C120_symmetric : forall ra1 dec1 ra2 dec2,
  angdistr ra1 dec1 ra2 dec2 = angdistr ra2 dec2 ra1 dec1 /\ angdist ra1 dec1 ra2 dec2 = angdist ra2 dec2 ra1 dec1.
Proof.
  assert (S : forall ra1 dec1 ra2 dec2, angdistr ra1 dec1 ra2 dec2 = angdistr ra2 dec2 ra1 dec1).
  { intros. apply (angle_fun (direction ra1 dec1) (direction ra2 dec2)); [apply angdistr_angle|].
    destruct (angdistr_angle ra2 dec2 ra1 dec1) as [A B]. split; [exact A|]. rewrite B. apply dot_sym. }
  intros. split; [apply S|]. rewrite !angdist_rad. f_equal. apply S.
Qed.
Print Assumptions C120_symmetric.
Lemma arcsec_0 a : arcsec a = 0 <-> a = 0.
Proof.
  unfold arcsec. pose proof PI_RGT_0 as P. split; intros H; [|rewrite H; field; lra].
  replace a with (3600 * (a * 180 / PI) * (PI / 648000)) by (field; lra). rewrite H. ring.
Qed.
(* the distance is 0 for the same direction only, whatever the coordinates that name it *)
Theorem C120_zero : forall ra1 dec1 ra2 dec2,
  (angdistr ra1 dec1 ra2 dec2 = 0 <-> direction ra1 dec1 = direction ra2 dec2) /\
  (angdist ra1 dec1 ra2 dec2 = 0 <-> on_sky ra1 dec1 = on_sky ra2 dec2).
Proof.
  assert (Z : forall ra1 dec1 ra2 dec2, angdistr ra1 dec1 ra2 dec2 = 0 <-> direction ra1 dec1 = direction ra2 dec2).
  { intros. apply angle_zero; [apply direction_unit|apply direction_unit|apply angdistr_angle]. }
  intros. split; [apply Z|]. rewrite angdist_rad, arcsec_0. apply Z.
Qed.
Print Assumptions C120_zero.
Example C120_zero_ex : angdist 0 5 360 5 = 0 /\ angdist 12 90 77 90 = 0.
Proof.
  split; apply C120_zero; unfold on_sky, direction, radians.
  - replace (0 * PI / 180) with 0 by field. replace (360 * PI / 180) with (2 * PI) by field. rewrite cos_2PI, sin_2PI, cos_0, sin_0. reflexivity.
  - replace (90 * PI / 180) with (PI / 2) by field. rewrite cos_PI2. f_equal; ring.
Qed.
Lemma arcsec_plus a b : arcsec (a + b) = arcsec a + arcsec b.
Proof. unfold arcsec. pose proof PI_RGT_0. field. lra. Qed.
Lemma arcsec_le a b : a <= b -> arcsec a <= arcsec b.
Proof. intros [H|H]; [left; apply arcsec_lt; exact H|right; rewrite H; reflexivity]. Qed.
Lemma triangle_r ra1 dec1 ra2 dec2 ra3 dec3 : angdistr ra1 dec1 ra3 dec3 <= angdistr ra1 dec1 ra2 dec2 + angdistr ra2 dec2 ra3 dec3.
Proof. apply (angle_triangle (direction ra1 dec1) (direction ra2 dec2) (direction ra3 dec3)); try apply direction_unit; apply angdistr_angle. Qed.
Theorem C120_triangle : forall ra1 dec1 ra2 dec2 ra3 dec3,
  angdistr ra1 dec1 ra3 dec3 <= angdistr ra1 dec1 ra2 dec2 + angdistr ra2 dec2 ra3 dec3 /\
  angdist ra1 dec1 ra3 dec3 <= angdist ra1 dec1 ra2 dec2 + angdist ra2 dec2 ra3 dec3.
Proof. intros. split; [apply triangle_r|]. rewrite !angdist_rad, <- arcsec_plus. apply arcsec_le, triangle_r. Qed.
Print Assumptions C120_triangle.

(* --- arrays of positions ------------------------------------------------------- *)
(* one distance for each pair of elements of the same place *)
Theorem C120_vectors : forall r1 d1 r2 d2, dims r1 = dims d1 -> dims r2 = dims d2 -> dims r1 = dims r2 ->
  whole r1 -> whole d1 -> whole r2 -> whole d2 ->
  exists res, angdist_vec r1 d1 r2 d2 = Ok res /\ dims res = dims r1 /\ whole res /\
  forall i a b c d, nth_error (data r1) i = Some a -> nth_error (data d1) i = Some b -> nth_error (data r2) i = Some c -> nth_error (data d2) i = Some d ->
    nth_error (data res) i = Some (angdist a b c d).
Proof.
  unfold whole. intros r1 d1 r2 d2 E1 E2 E3 W1 W2 W3 W4. unfold angdist_vec.
  rewrite (proj2 (same_dims_true r1 d1) E1), (proj2 (same_dims_true r2 d2) E2), (proj2 (same_dims_true r1 r2) E3). cbn [check obind].
  rewrite (each_ok _ _ _ (fun i => angdist (nth i (data r1) 0) (nth i (data d1) 0) (nth i (data r2) 0) (nth i (data d2) 0))).
  - eexists. split; [reflexivity|]. split; [reflexivity|]. split; [cbn [data dims]; rewrite map_length, seq_length; exact W1|].
    intros i a b c d A B C D. assert (I : (i < List.length (data r1))%nat) by (apply nth_error_Some; rewrite A; discriminate).
    cbn [data]. rewrite nth_each by exact I. rewrite (nth_error_nth _ _ 0 A), (nth_error_nth _ _ 0 B), (nth_error_nth _ _ 0 C), (nth_error_nth _ _ 0 D). reflexivity.
  - intros i I. assert (L1 : (i < List.length (data d1))%nat) by (rewrite W2, <- E1, <- W1; exact I).
    assert (L2 : (i < List.length (data r2))%nat) by (rewrite W3, <- E3, <- W1; exact I). assert (L3 : (i < List.length (data d2))%nat) by (rewrite W4, <- E2, <- E3, <- W1; exact I).
    rewrite !(oget_nth _ _ 0) by assumption. reflexivity.
Qed.
Print Assumptions C120_vectors.
Example C120_vectors_ex : exists res, angdist_vec (Arr [2%nat] [1; 2]) (Arr [2%nat] [0; 0]) (Arr [2%nat] [1; 2]) (Arr [2%nat] [0; 1]) = Ok res /\
  nth_error (data res) 0 = Some (angdist 1 0 1 0) /\ nth_error (data res) 1 = Some (angdist 2 0 2 1).
Proof.
  destruct (C120_vectors (Arr [2%nat] [1; 2]) (Arr [2%nat] [0; 0]) (Arr [2%nat] [1; 2]) (Arr [2%nat] [0; 1])) as (res & E & _ & _ & H); try reflexivity.
  exists res. split; [exact E|]. split; [apply (H 0%nat)|apply (H 1%nat)]; reflexivity.
Qed.
Theorem C120_vectors_checked : forall r1 d1 r2 d2, ~ (dims r1 = dims d1 /\ dims r2 = dims d2 /\ dims r1 = dims r2) -> angdist_vec r1 d1 r2 d2 = CheckFail.
Proof.
  intros r1 d1 r2 d2 H. unfold angdist_vec. destruct (same_dims r1 d1) eqn:A; [|reflexivity]. destruct (same_dims r2 d2) eqn:B; [|reflexivity].
  destruct (same_dims r1 r2) eqn:C; [|reflexivity]. exfalso. apply H. apply same_dims_true in A, B, C. auto.
Qed.
Print Assumptions C120_vectors_checked.
(* distances to one point are those to an array full of this point *)
Theorem C120_point : forall r1 d1 ra dec, dims r1 = dims d1 -> whole r1 -> whole d1 ->
  exists res, angdist_point r1 d1 ra dec = Ok res /\ dims res = dims r1 /\ whole res /\
  forall i a b, nth_error (data r1) i = Some a -> nth_error (data d1) i = Some b -> nth_error (data res) i = Some (angdist a b ra dec).
Proof.
  unfold whole. intros r1 d1 ra dec E1 W1 W2. unfold angdist_point. rewrite (proj2 (same_dims_true r1 d1) E1). cbn [check obind].
  rewrite (each_ok _ _ _ (fun i => angdist (nth i (data r1) 0) (nth i (data d1) 0) ra dec)).
  - eexists. split; [reflexivity|]. split; [reflexivity|]. split; [cbn [data dims]; rewrite map_length, seq_length; exact W1|].
    intros i a b A B. assert (I : (i < List.length (data r1))%nat) by (apply nth_error_Some; rewrite A; discriminate).
    cbn [data]. rewrite nth_each by exact I. rewrite (nth_error_nth _ _ 0 A), (nth_error_nth _ _ 0 B). reflexivity.
  - intros i I. assert (L1 : (i < List.length (data d1))%nat) by (rewrite W2, <- E1, <- W1; exact I). rewrite !(oget_nth _ _ 0) by assumption. reflexivity.
Qed.
Print Assumptions C120_point.
Theorem C120_point_checked : forall r1 d1 ra dec rad, dims r1 <> dims d1 ->
  angdist_point r1 d1 ra dec = CheckFail /\ angdist_less r1 d1 ra dec rad = CheckFail /\ move_vec r1 d1 ra dec = CheckFail /\ angrot_vernal r1 d1 ra = CheckFail.
Proof.
  intros r1 d1 ra dec rad H. unfold angdist_point, angdist_less, move_vec, angrot_vernal.
  destruct (same_dims r1 d1) eqn:A; [exfalso; apply H; now apply same_dims_true|]. repeat split; reflexivity.
Qed.
Print Assumptions C120_point_checked.
Lemma less_eq r1 d1 ra dec rad : dims r1 = dims d1 -> whole r1 -> whole d1 ->
  exists res, angdist_less r1 d1 ra dec rad = Ok res /\ dims res = dims r1 /\ whole res /\
  forall i a b, nth_error (data r1) i = Some a -> nth_error (data d1) i = Some b -> exists v, nth_error (data res) i = Some v /\
   (v = true <-> hav (radians a) (radians b) (radians ra) (radians dec) < sqr (sin (d2r * rad / 3600 / 2))).
Proof.
  unfold whole. intros E1 W1 W2. unfold angdist_less. rewrite (proj2 (same_dims_true r1 d1) E1). cbn [check obind]. cbv zeta.
  rewrite (each_ok _ _ _ (fun i => if Rlt_dec (hav (radians (nth i (data r1) 0)) (radians (nth i (data d1) 0)) (radians ra) (radians dec)) (sqr (sin (d2r * rad / 3600 / 2))) then true else false)).
  - eexists. split; [reflexivity|]. split; [reflexivity|]. split; [cbn [data dims]; rewrite map_length, seq_length; exact W1|].
    intros i a b A B. assert (I : (i < List.length (data r1))%nat) by (apply nth_error_Some; rewrite A; discriminate).
    cbn [data]. rewrite nth_each by exact I. rewrite (nth_error_nth _ _ 0 A), (nth_error_nth _ _ 0 B). eexists. split; [reflexivity|].
    destruct (Rlt_dec _ _); split; auto; discriminate.
  - intros i I. assert (L1 : (i < List.length (data d1))%nat) by (rewrite W2, <- E1, <- W1; exact I). rewrite !(oget_nth _ _ 0) by assumption. cbn [obind].
    rewrite !d2r_rad. reflexivity.
Qed.
(* up to half a turn, angdist_less says which distances are below the radius *)
Theorem C120_less : forall r1 d1 ra dec rad, dims r1 = dims d1 -> whole r1 -> whole d1 -> 0 <= rad <= 648000 ->
  exists res, angdist_less r1 d1 ra dec rad = Ok res /\ dims res = dims r1 /\ whole res /\
  forall i a b, nth_error (data r1) i = Some a -> nth_error (data d1) i = Some b -> exists v, nth_error (data res) i = Some v /\ (v = true <-> angdist a b ra dec < rad).
Proof.
  intros r1 d1 ra dec rad E W1 W2 B. destruct (less_eq r1 d1 ra dec rad E W1 W2) as (res & R & D & W & H). exists res. split; [exact R|]. split; [exact D|]. split; [exact W|].
  intros i a b Ha Hb. destruct (H i a b Ha Hb) as (v & V & K). exists v. split; [exact V|]. rewrite K. apply less_ok. exact B.
Qed.
Print Assumptions C120_less.
Example C120_less_ex : exists v w, angdist_less (Arr [2%nat] [10; 10]) (Arr [2%nat] [0; 1]) 10 0 60 = Ok (Arr [2%nat] [v; w]) /\ v = true /\ w = false.
Proof.
  destruct (C120_less (Arr [2%nat] [10; 10]) (Arr [2%nat] [0; 1]) 10 0 60 eq_refl eq_refl eq_refl ltac:(lra)) as ([d l] & R & D & W & H). cbn [dims data] in *.
  destruct (H 0%nat 10 0 eq_refl eq_refl) as (v & V & Kv). destruct (H 1%nat 10 1 eq_refl eq_refl) as (w & Wv & Kw).
  exists v, w. split.
  - rewrite R. subst d. unfold whole in W. cbn in W. destruct l as [|x [|y [|z l]]]; try discriminate. cbn in V, Wv. injection V as ->. injection Wv as ->. reflexivity.
  - split; [apply Kv|destruct w; [exfalso|reflexivity]].
    + destruct (C120_zero 10 0 10 0) as [_ Z]. rewrite (proj2 Z eq_refl). lra.
    + assert (K : angdist 10 1 10 0 < 60) by (apply Kw; reflexivity). rewrite (proj2 (C120_symmetric 10 1 10 0)), C120_degrees_ex in K. lra.
Qed.
(* Finding: the sign of the radius of angdist_less is lost, and a radius above half a turn selects as a smaller one does:
   with a negative radius a source is found at less than it, and with a whole turn no source is. *)
Theorem C120_less_refuted :
  (forall r1 d1 ra dec rad, angdist_less r1 d1 ra dec (- rad) = angdist_less r1 d1 ra dec rad) /\
  (forall r1 d1 ra dec rad, angdist_less r1 d1 ra dec (1296000 - rad) = angdist_less r1 d1 ra dec rad) /\
  (exists a b ra dec rad, angdist_less (Arr [1%nat] [a]) (Arr [1%nat] [b]) ra dec rad = Ok (Arr [1%nat] [true]) /\ ~ angdist a b ra dec < rad) /\
  (exists a b ra dec rad, angdist_less (Arr [1%nat] [a]) (Arr [1%nat] [b]) ra dec rad = Ok (Arr [1%nat] [false]) /\ angdist a b ra dec < rad).
Proof.
  assert (N : forall rad, sqr (sin (d2r * - rad / 3600 / 2)) = sqr (sin (d2r * rad / 3600 / 2))).
  { intros rad. replace (d2r * - rad / 3600 / 2) with (- (d2r * rad / 3600 / 2)) by field. rewrite sin_neg. unfold sqr. ring. }
  assert (T : forall rad, sqr (sin (d2r * (1296000 - rad) / 3600 / 2)) = sqr (sin (d2r * rad / 3600 / 2))).
  { intros rad. replace (d2r * (1296000 - rad) / 3600 / 2) with (PI - d2r * rad / 3600 / 2) by (unfold d2r; field). rewrite sin_minus, sin_PI, cos_PI. unfold sqr. ring. }
  assert (P1 : forall r1 d1 ra dec rad, angdist_less r1 d1 ra dec (- rad) = angdist_less r1 d1 ra dec rad) by (intros; unfold angdist_less; rewrite N; reflexivity).
  assert (P2 : forall r1 d1 ra dec rad, angdist_less r1 d1 ra dec (1296000 - rad) = angdist_less r1 d1 ra dec rad) by (intros; unfold angdist_less; rewrite T; reflexivity).
  split; [exact P1|]. split; [exact P2|].
  assert (Z : angdist 10 0 10 0 = 0) by (apply C120_zero; reflexivity).
  split.
  - exists 10, 0, 10, 0, (- (60)). rewrite P1. split; [|lra].
    destruct (C120_less (Arr [1%nat] [10]) (Arr [1%nat] [0]) 10 0 60 eq_refl eq_refl eq_refl ltac:(lra)) as ([d l] & R & D & W & H). cbn [dims data] in *.
    destruct (H 0%nat 10 0 eq_refl eq_refl) as (v & V & Kv). rewrite R. subst d. unfold whole in W. cbn in W. destruct l as [|x [|y l]]; try discriminate.
    cbn in V. injection V as ->. rewrite (proj2 Kv) by lra. reflexivity.
  - exists 10, 0, 10, 0, (1296000 - 0). rewrite P2. split; [|lra].
    destruct (C120_less (Arr [1%nat] [10]) (Arr [1%nat] [0]) 10 0 0 eq_refl eq_refl eq_refl ltac:(lra)) as ([d l] & R & D & W & H). cbn [dims data] in *.
    destruct (H 0%nat 10 0 eq_refl eq_refl) as (v & V & Kv). rewrite R. subst d. unfold whole in W. cbn in W. destruct l as [|x [|y l]]; try discriminate.
    cbn in V. injection V as ->. destruct v; [|reflexivity]. exfalso. pose proof (proj1 Kv eq_refl). lra.
Qed.
Print Assumptions C120_less_refuted.

(* --- moves ------------------------------------------------------------------------ *)
(* a move is exact in declination; in right ascension it is divided by the cosine of the former declination *)
Theorem C120_move : forall ra dec dra ddec, cos (radians dec) <> 0 ->
  exists ra', move_ra_dec ra dec dra ddec = (Some ra', dec + ddec / 3600) /\ (ra' - ra) * cos (radians dec) = dra / 3600.
Proof.
  intros ra dec dra ddec H. unfold move_ra_dec. change (dec * PI / 180) with (radians dec). destruct (Req_EM_T _ 0) as [E|_]; [contradiction|].
  eexists. split; [reflexivity|]. field. exact H.
Qed.
Print Assumptions C120_move.
Example C120_move_ex : move_ra_dec 10 0 3600 7200 = (Some 11, 2).
Proof.
  assert (E : cos (radians 0) = 1) by (unfold radians; replace (0 * PI / 180) with 0 by field; apply cos_0).
  destruct (C120_move 10 0 3600 7200) as (x & -> & H); [lra|]. rewrite E in H. f_equal; [f_equal|]; lra.
Qed.
(* a move along the meridian gives a point at exactly this distance *)
Theorem C120_move_meridian : forall ra dec ddec, cos (radians dec) <> 0 -> - 648000 <= ddec <= 648000 ->
  exists ra' dec', move_ra_dec ra dec 0 ddec = (Some ra', dec') /\ angdist ra dec ra' dec' = Rabs ddec.
Proof.
  intros ra dec ddec H B. destruct (C120_move ra dec 0 ddec H) as (ra' & E & K). exists ra', (dec + ddec / 3600). split; [exact E|].
  assert (R : ra' = ra). { assert (Z : (ra' - ra) * cos (radians dec) = 0) by lra. apply Rmult_integral in Z. destruct Z; [lra|contradiction]. }
  subst ra'. destruct (C120_degrees ra dec ra (dec + ddec / 3600)) as (a & A & -> & _).
  pose proof PI_RGT_0 as P. set (t := radians (ddec / 3600)).
  assert (T : - PI <= t <= PI) by (unfold t, radians; split; nra). destruct (angle_cos t T) as [T1 T2].
  assert (Ea : a = Rabs t). { apply (angle_fun _ _ _ _ A). split; [exact T1|]. rewrite T2, on_sky_meridian. f_equal. unfold t, radians. field. }
  rewrite Ea. unfold t, radians. replace (ddec / 3600 * PI / 180) with (ddec * (PI / 648000)) by field. rewrite Rabs_mult, (Rabs_right (PI / 648000)) by lra.
  unfold arcsec. field. lra.
Qed.
Print Assumptions C120_move_meridian.
(* at a pole the right ascension is divided by 0 *)
Theorem C120_move_pole : forall ra dra ddec, fst (move_ra_dec ra 90 dra ddec) = None.
Proof.
  intros. unfold move_ra_dec. cbn [fst]. replace (90 * PI / 180) with (PI / 2) by field. rewrite cos_PI2. destruct (Req_EM_T 0 0) as [_|N]; [reflexivity|]. exfalso. apply N. reflexivity.
Qed.
Print Assumptions C120_move_pole.
(* arrays move as their elements do *)
Theorem C120_move_vec : forall ra dec dra ddec, dims ra = dims dec -> whole ra -> whole dec ->
  exists res, move_vec ra dec dra ddec = Ok res /\ dims res = dims ra /\ whole res /\
  forall i a b, nth_error (data ra) i = Some a -> nth_error (data dec) i = Some b -> nth_error (data res) i = Some (move_ra_dec a b dra ddec).
Proof.
  unfold whole. intros ra dec dra ddec E1 W1 W2. unfold move_vec. rewrite (proj2 (same_dims_true ra dec) E1). cbn [check obind]. cbv zeta.
  rewrite (each_ok _ _ _ (fun i => move_ra_dec (nth i (data ra) 0) (nth i (data dec) 0) dra ddec)).
  - eexists. split; [reflexivity|]. split; [reflexivity|]. split; [cbn [data dims]; rewrite map_length, seq_length; exact W1|].
    intros i a b A B. assert (I : (i < List.length (data ra))%nat) by (apply nth_error_Some; rewrite A; discriminate).
    cbn [data]. rewrite nth_each by exact I. rewrite (nth_error_nth _ _ 0 A), (nth_error_nth _ _ 0 B). reflexivity.
  - intros i I. assert (L1 : (i < List.length (data dec))%nat) by (rewrite W2, <- E1, <- W1; exact I). rewrite !(oget_nth _ _ 0) by assumption. cbn [obind].
    unfold move_ra_dec. set (b := nth i (data dec) 0). replace (d2r * b) with (b * PI / 180) by (unfold d2r; field).
    destruct (Req_EM_T (cos (b * PI / 180)) 0) as [E|N]; [reflexivity|]. do 3 f_equal. field. exact N.
Qed.
Print Assumptions C120_move_vec.

(* --- rotations -------------------------------------------------------------------- *)
(* each position turns around the axis of the celestial origin; the new coordinates are in their usual ranges *)
Theorem C120_rotation : forall r1 d1 e, dims r1 = dims d1 -> whole r1 -> whole d1 ->
  exists res, angrot_vernal r1 d1 e = Ok res /\ dims res = dims r1 /\ whole res /\
  forall i a b, nth_error (data r1) i = Some a -> nth_error (data d1) i = Some b ->
    exists r2 d2, nth_error (data res) i = Some (r2, d2) /\ on_sky r2 d2 = turn (radians e) (on_sky a b) /\ 0 <= r2 <= 360 /\ -90 <= d2 <= 90.
Proof.
  unfold whole. intros r1 d1 e E1 W1 W2. unfold angrot_vernal. rewrite (proj2 (same_dims_true r1 d1) E1). cbn [check obind].
  rewrite (each_ok _ _ _ (fun i => rot_point e (nth i (data r1) 0) (nth i (data d1) 0))).
  - eexists. split; [reflexivity|]. split; [reflexivity|]. split; [cbn [data dims]; rewrite map_length, seq_length; exact W1|].
    intros i a b A B. assert (I : (i < List.length (data r1))%nat) by (apply nth_error_Some; rewrite A; discriminate).
    cbn [data]. rewrite nth_each by exact I. rewrite (nth_error_nth _ _ 0 A), (nth_error_nth _ _ 0 B).
    pose proof (rot_ok e a b) as K. destruct (rot_point e a b) as [r2 d2]. exists r2, d2. split; [reflexivity|exact K].
  - intros i I. assert (L1 : (i < List.length (data d1))%nat) by (rewrite W2, <- E1, <- W1; exact I). rewrite !(oget_nth _ _ 0) by assumption. reflexivity.
Qed.
Print Assumptions C120_rotation.
(* rotations keep the distances *)
Theorem C120_isometry : forall e ra1 dec1 ra2 dec2,
  angdist (fst (rot_point e ra1 dec1)) (snd (rot_point e ra1 dec1)) (fst (rot_point e ra2 dec2)) (snd (rot_point e ra2 dec2)) = angdist ra1 dec1 ra2 dec2.
Proof.
  intros. pose proof (rot_ok e ra1 dec1) as K1. pose proof (rot_ok e ra2 dec2) as K2.
  destruct (rot_point e ra1 dec1) as [r1 d1], (rot_point e ra2 dec2) as [r2 d2]. cbn [fst snd]. destruct K1 as [K1 _], K2 as [K2 _].
  destruct (C120_degrees r1 d1 r2 d2) as (a & A & -> & _). destruct (C120_degrees ra1 dec1 ra2 dec2) as (b & B & -> & _). f_equal.
  destruct A as [A1 A2], B as [B1 B2]. rewrite K1, K2, turn_dot in A2. apply (angle_fun (on_sky ra1 dec1) (on_sky ra2 dec2)); split; assumption.
Qed.
Print Assumptions C120_isometry.
Example C120_rotation_ex : forall r2 d2, rot_point 90 90 0 = (r2, d2) -> on_sky r2 d2 = V3 0 0 1.
Proof.
  intros r2 d2 E. pose proof (rot_ok 90 90 0) as K. rewrite E in K. destruct K as [K _]. rewrite K. unfold turn, on_sky, direction, radians. cbn [vx vy vz].
  replace (90 * PI / 180) with (PI / 2) by field. replace (0 * PI / 180) with 0 by field. rewrite cos_PI2, sin_PI2, cos_0, sin_0. f_equal; ring.
Qed.
Lemma vernal_eq ra dec : ra <= 360 -> radians (vernal_angle ra dec) = asin (vz (on_sky ra dec) / sqrt (vy (on_sky ra dec) * vy (on_sky ra dec) + vz (on_sky ra dec) * vz (on_sky ra dec))).
Proof.
  intros B. unfold vernal_angle. replace (ra * (PI / 180)) with (radians ra) by (unfold radians; field). replace (dec * (PI / 180)) with (radians dec) by (unfold radians; field). cbv zeta.
  destruct (Rlt_dec 180 (radians ra)) as [L|_].
  - exfalso. unfold radians in L. pose proof PI_RGT_0. pose proof PI_4. nra.
  - rewrite (vernal_sin (radians ra) (radians dec)). fold (on_sky ra dec). change (sin (radians dec)) with (vz (on_sky ra dec)).
    replace (180 / PI * asin _) with (asin (vz (on_sky ra dec) / sqrt (vy (on_sky ra dec) * vy (on_sky ra dec) + vz (on_sky ra dec) * vz (on_sky ra dec))) * (180 / PI)) by ring.
    apply radians_back.
Qed.
(* in the half of the sky where y >= 0, turning back by the vernal angle puts the point on the equator *)
Theorem C120_vernal : forall ra dec, ra <= 360 -> 0 <= vy (on_sky ra dec) -> 0 < vy (on_sky ra dec) \/ vz (on_sky ra dec) <> 0 ->
  vz (turn (- radians (vernal_angle ra dec)) (on_sky ra dec)) = 0 /\ 0 <= vy (turn (- radians (vernal_angle ra dec)) (on_sky ra dec)).
Proof.
  intros ra dec B Y N. rewrite vernal_eq by exact B. set (u := on_sky ra dec) in *. set (s := sqrt (vy u * vy u + vz u * vz u)).
  assert (S : 0 < s).
  { apply sqrt_lt_R0. pose proof (Rle_0_sqr (vy u)) as A1. pose proof (Rle_0_sqr (vz u)) as A2. unfold Rsqr in *. destruct N as [N|N]; [|assert (0 < vz u * vz u) by (apply Rsqr_pos_lt; exact N)]; nra. }
  destruct (vernal_turn (radians ra) (radians dec)) as [K1 K2]; fold (on_sky ra dec); fold u; [exact S|].
  fold (on_sky ra dec) in K1, K2. fold u in K1, K2. fold s in K1, K2. set (e := asin (vz u / s)) in *. rewrite (Rabs_right (vy u)) in K2 by lra.
  unfold turn. cbn [vz vy]. rewrite cos_neg, sin_neg. split.
  - rewrite <- K1, <- K2. ring.
  - replace (cos e * vy u - - sin e * vz u) with (s * (sin e * sin e + cos e * cos e)) by (rewrite <- K1, <- K2; ring). rewrite s2c2. lra.
Qed.
Print Assumptions C120_vernal.
(* Finding: vernal_angle compares with 180 an angle that is already in radians, so the sign is never
   changed: for the other half of the sky the angle is that of the mirrored point, and does not lead to the equator. *)
Theorem C120_vernal_refuted :
  (forall ra dec, 0 <= ra <= 360 -> vernal_angle (360 - ra) dec = vernal_angle ra dec) /\
  (exists ra dec, 180 < ra < 360 /\ vz (turn (- radians (vernal_angle ra dec)) (on_sky ra dec)) <> 0).
Proof.
  split.
  - intros ra dec B. assert (E : radians (vernal_angle (360 - ra) dec) = radians (vernal_angle ra dec)).
    { rewrite !vernal_eq by lra. assert (M1 : vz (on_sky (360 - ra) dec) = vz (on_sky ra dec)) by reflexivity.
      assert (M2 : vy (on_sky (360 - ra) dec) = - vy (on_sky ra dec)).
      { unfold on_sky, direction. cbn [vy]. replace (radians (360 - ra)) with (2 * PI - radians ra) by (unfold radians; field). rewrite sin_minus, sin_2PI, cos_2PI. ring. }
      rewrite M1, M2. do 3 f_equal. ring. }
    unfold radians in E. pose proof PI_RGT_0 as P. apply (Rmult_eq_reg_r (PI / 180)); lra.
  - exists 270, 45. split; [lra|]. rewrite vernal_eq by lra. set (u := on_sky 270 45).
    assert (H1 : vy u = - (1 / sqrt 2)).
    { unfold u, on_sky, direction, radians. cbn [vy]. replace (45 * PI / 180) with (PI / 4) by field. replace (270 * PI / 180) with (3 * (PI / 2)) by field. rewrite cos_PI4, sin_3PI2. ring. }
    assert (H2 : vz u = 1 / sqrt 2). { unfold u, on_sky, direction, radians. cbn [vz]. replace (45 * PI / 180) with (PI / 4) by field. apply sin_PI4. }
    set (s := sqrt (vy u * vy u + vz u * vz u)). pose proof sqrt_lt_R0 2 ltac:(lra) as Q. assert (Q2 : 0 < 1 / sqrt 2) by (apply Rdiv_lt_0_compat; lra).
    assert (S : 0 < s) by (apply sqrt_lt_R0; rewrite H1, H2; nra).
    destruct (vernal_turn (radians 270) (radians 45)) as [K1 K2]; fold (on_sky 270 45); fold u; [exact S|].
    fold (on_sky 270 45) in K1, K2. fold u in K1, K2. fold s in K1, K2. set (e := asin (vz u / s)) in *.
    unfold turn. cbn [vz]. rewrite cos_neg, sin_neg. rewrite H1, Rabs_left in K2 by lra. intros Z. rewrite H2 in K1. rewrite H1, H2 in Z.
    assert (E1 : sin e = cos e) by (apply (Rmult_eq_reg_l s); lra). rewrite E1 in Z, K1.
    assert (C : 0 < cos e) by (apply (Rmult_lt_reg_l s); lra). nra.
Qed.
Print Assumptions C120_vernal_refuted.

(* --- all distances of a list --------------------------------------------------------- *)
(* qdist: the element (j,i) is the distance of i and j if i < j, and 0 otherwise *)
Theorem C120_qdist : forall ra dec, List.length ra = List.length dec ->
  exists m, qdist ra dec = Ok m /\ List.length m = List.length ra /\
  forall j i, (j < List.length ra)%nat -> (i < List.length ra)%nat -> exists row, nth_error m j = Some row /\ List.length row = List.length ra /\
    nth_error row i = Some (if (i <? j)%nat then angdist (nth i ra 0) (nth i dec 0) (nth j ra 0) (nth j dec 0) else 0).
Proof.
  intros ra dec L. unfold qdist. rewrite (proj2 (Nat.eqb_eq _ _) L). cbn [check obind]. cbv zeta. set (n := List.length ra) in *.
  rewrite mat_zero.
  rewrite (outer n _ (fun i j => angdist (nth i ra 0) (nth i dec 0) (nth j ra 0) (nth j dec 0))) with (s := O) (k := n).
  - eexists. split; [reflexivity|]. unfold mat. split; [rewrite map_length; apply seq_length|]. intros j i J I. rewrite nth_each by exact J. eexists. split; [reflexivity|].
    split; [rewrite map_length; apply seq_length|]. rewrite nth_each by exact I. cbn [Nat.leb andb Nat.add]. rewrite (proj2 (Nat.ltb_lt i n) I). reflexivity.
  - intros i j I J.
    assert (G : forall (f : R -> R) l k, (k < List.length l)%nat -> oget (map f l) k = Ok (f (nth k l 0))).
    { intros f l k K. unfold oget. rewrite (map_nth_error f k l (nth_error_nth' l 0 K)). reflexivity. }
    assert (Id : (i < List.length dec)%nat) by (rewrite <- L; exact I). assert (Jd : (j < List.length dec)%nat) by (rewrite <- L; exact J).
    rewrite map_map. rewrite !G by assumption. cbn [obind]. f_equal. unfold angdist. rewrite !(Rmult_comm d2r). pose proof PI_RGT_0. set (q := asin _). unfold d2r. field. lra.
  - lia.
Qed.
Print Assumptions C120_qdist.
(* Finding: only one half of the matrix is filled: for two sources at some distance, element (0,1) is 0. *)
Theorem C120_qdist_refuted : exists ra dec m row, qdist ra dec = Ok m /\ nth_error m 0 = Some row /\ nth_error row 1 = Some 0 /\
  angdist (nth 0 ra 0) (nth 0 dec 0) (nth 1 ra 0) (nth 1 dec 0) = 3600.
Proof.
  destruct (C120_qdist [10; 10] [0; 1] eq_refl) as (m & E & _ & H). destruct (H 0%nat 1%nat) as (row & R1 & _ & R2); [cbn; lia|cbn; lia|].
  exists [10; 10], [0; 1], m, row. split; [exact E|]. split; [exact R1|]. split; [exact R2|]. exact C120_degrees_ex.
Qed.
Print Assumptions C120_qdist_refuted.
Theorem C120_qdist_checked : forall ra dec, List.length ra <> List.length dec -> qdist ra dec = CheckFail.
Proof. intros ra dec H. unfold qdist. rewrite (proj2 (Nat.eqb_neq _ _) H). reflexivity. Qed.
Print Assumptions C120_qdist_checked.

(* --- the area of a hull ---------------------------------------------------------------- *)
Lemma heron_sky x0 y0 x1 y1 x2 y2 :
  flat_area (angdistr x0 y0 x1 y1) (angdistr x1 y1 x2 y2) (angdistr x2 y2 x0 y0) (sqrt (heron (angdistr x0 y0 x1 y1) (angdistr x1 y1 x2 y2) (angdistr x2 y2 x0 y0))).
Proof.
  assert (P : forall a b c d, 0 <= angdistr a b c d) by (intros a b c d; destruct (angdistr_angle a b c d) as [A _]; lra).
  assert (S : forall a b c d, angdistr a b c d = angdistr c d a b) by (intros; apply C120_symmetric).
  pose proof (triangle_r x0 y0 x2 y2 x1 y1) as T1. pose proof (triangle_r x1 y1 x0 y0 x2 y2) as T2. pose proof (triangle_r x2 y2 x1 y1 x0 y0) as T3.
  rewrite (S x0 y0 x2 y2), (S x2 y2 x1 y1) in T1. rewrite (S x1 y1 x0 y0), (S x0 y0 x2 y2) in T2. rewrite (S x2 y2 x1 y1), (S x1 y1 x0 y0) in T3.
  split; [apply sqrt_pos|]. rewrite sqrt_sqrt; [apply heron_poly|]. apply heron_ok; try apply P; lra.
Qed.
Definition area_step (h : list (R * R)) : R -> nat -> outcome R :=
  fun area i =>
      ' (x0, y0) <- oget h 0 ;; ' (x1, y1) <- oget h (i - 1) ;; ' (x2, y2) <- oget h i ;;
      let e1 := angdistr x0 y0 x1 y1 in
      let e2 := angdistr x1 y1 x2 y2 in
      let e3 := angdistr x2 y2 x0 y0 in
      Ok (area + sqrt (heron e1 e2 e3)).
Lemma area_fold (h : list (R * R)) : forall k s acc, (2 <= s)%nat -> (s + k <= List.length h)%nat ->
  exists l, List.length l = k /\
    (forall i, (i < k)%nat -> exists v x0 y0 x1 y1 x2 y2, nth_error l i = Some v /\ nth_error h 0 = Some (x0, y0) /\ nth_error h (s + i - 1) = Some (x1, y1) /\ nth_error h (s + i) = Some (x2, y2) /\
       v = sqrt (heron (angdistr x0 y0 x1 y1) (angdistr x1 y1 x2 y2) (angdistr x2 y2 x0 y0))) /\
    ofold (area_step h) (seq s k) acc = Ok (acc + total l).
Proof.
  induction k as [|k IH]; intros s acc S2 L.
  - exists []. split; [reflexivity|]. split; [intros i I; lia|]. cbn. f_equal. ring.
  - assert (G : forall i, (i < List.length h)%nat -> exists x y, nth_error h i = Some (x, y)).
    { intros i I. destruct (nth_error h i) as [[x y]|] eqn:E; [eauto|]. apply nth_error_None in E. lia. }
    destruct (G 0%nat) as (x0 & y0 & E0); [lia|]. destruct (G (s - 1)%nat) as (x1 & y1 & E1); [lia|]. destruct (G s) as (x2 & y2 & E2); [lia|].
    set (v := sqrt (heron (angdistr x0 y0 x1 y1) (angdistr x1 y1 x2 y2) (angdistr x2 y2 x0 y0))).
    destruct (IH (S s) (acc + v)) as (l & Ll & Hl & El); [lia|lia|]. exists (v :: l). split; [cbn; rewrite Ll; reflexivity|]. split.
    + intros [|i] I.
      * exists v, x0, y0, x1, y1, x2, y2. rewrite Nat.add_0_r. repeat split; auto.
      * destruct (Hl i) as (v' & a0 & b0 & a1 & b1 & a2 & b2 & H1 & H2 & H3 & H4 & H5); [lia|]. exists v', a0, b0, a1, b1, a2, b2.
        replace (s + S i)%nat with (S s + i)%nat by lia. repeat split; auto.
    + cbn [seq ofold]. assert (St : area_step h acc s = Ok (acc + v)) by (unfold area_step, oget; rewrite E0, E1, E2; reflexivity). rewrite St. cbn [obind]. rewrite El. f_equal. cbn [total fold_right]. unfold total. ring.
Qed.
(* the area is the sum of the flat triangles of the first point and each edge, whose sides are the distances
   on the sky; these are always the sides of a triangle, so that no root of a negative number is taken *)
Theorem C120_area : forall hull, (3 <= List.length hull)%nat ->
  exists areas, List.length areas = (List.length hull - 2)%nat /\ field_area_hull true hull = Ok (total areas * (180 / PI) * (180 / PI)) /\ 0 <= total areas /\
  forall i, (i < List.length hull - 2)%nat -> exists s r0 d0 r1 d1 r2 d2 a b c,
    nth_error areas i = Some s /\ nth_error hull 0 = Some (r0, d0) /\ nth_error hull (i + 1) = Some (r1, d1) /\ nth_error hull (i + 2) = Some (r2, d2) /\
    angle_of (on_sky r0 d0) (on_sky r1 d1) a /\ angle_of (on_sky r1 d1) (on_sky r2 d2) b /\ angle_of (on_sky r2 d2) (on_sky r0 d0) c /\ flat_area a b c s.
Proof.
  intros hull L. unfold field_area_hull. rewrite (proj2 (Nat.leb_le _ _) L). cbn [check obind]. cbv zeta.
  set (h := map _ hull). assert (Lh : List.length h = List.length hull) by apply map_length.
  destruct (area_fold h (List.length h - 2) 2 0) as (l & Ll & Hl & El); [lia|lia|]. exists l. rewrite Lh in Ll. split; [exact Ll|].
  assert (D : forall i, (i < List.length hull - 2)%nat -> exists s r0 d0 r1 d1 r2 d2 a b c,
    nth_error l i = Some s /\ nth_error hull 0 = Some (r0, d0) /\ nth_error hull (i + 1) = Some (r1, d1) /\ nth_error hull (i + 2) = Some (r2, d2) /\
    angle_of (on_sky r0 d0) (on_sky r1 d1) a /\ angle_of (on_sky r1 d1) (on_sky r2 d2) b /\ angle_of (on_sky r2 d2) (on_sky r0 d0) c /\ flat_area a b c s).
  { intros i I. destruct (Hl i) as (v & x0 & y0 & x1 & y1 & x2 & y2 & H1 & H2 & H3 & H4 & H5); [lia|].
    assert (G : forall k x y, nth_error h k = Some (x, y) -> exists r d, nth_error hull k = Some (r, d) /\ x = radians r /\ y = radians d).
    { intros k x y E. unfold h in E. rewrite nth_error_map in E. destruct (nth_error hull k) as [[r d]|]; [|discriminate]. cbn in E. injection E as E1 E2.
      exists r, d. split; [reflexivity|]. split; [rewrite <- E1|rewrite <- E2]; unfold radians, d2r; field. }
    destruct (G _ _ _ H2) as (r0 & d0 & N0 & -> & ->). destruct (G _ _ _ H3) as (r1 & d1 & N1 & -> & ->). destruct (G _ _ _ H4) as (r2 & d2 & N2 & -> & ->).
    exists v, r0, d0, r1, d1, r2, d2. do 3 eexists. split; [exact H1|]. split; [exact N0|]. split; [replace (i + 1)%nat with (2 + i - 1)%nat by lia; exact N1|].
    split; [replace (i + 2)%nat with (2 + i)%nat by lia; exact N2|]. split; [apply angdistr_angle|]. split; [apply angdistr_angle|]. split; [apply angdistr_angle|].
    rewrite H5. apply heron_sky. }
  split; [|split; [|exact D]].
  - unfold area_step in El. rewrite El. cbn [obind]. f_equal. unfold sqr, d2r. pose proof PI_RGT_0. field. lra.
  - assert (P : forall m, (forall i v, nth_error m i = Some v -> 0 <= v) -> 0 <= total m).
    { induction m as [|v m IH]; intros H; cbn [total fold_right]; [lra|]. pose proof (H 0%nat v eq_refl). assert (0 <= total m) by (apply IH; intros i w E; apply (H (S i) w E)). unfold total in *. lra. }
    apply P. intros i v E. destruct (D i) as (s & r0 & d0 & r1 & d1 & r2 & d2 & a & b & c & E' & _ & _ & _ & _ & _ & _ & [F _]).
    { rewrite <- Ll. apply nth_error_Some. rewrite E. discriminate. }
    rewrite E in E'. injection E' as ->. exact F.
Qed.
Print Assumptions C120_area.
Theorem C120_area_checked : forall closed hull, closed = false \/ (List.length hull < 3)%nat -> field_area_hull closed hull = CheckFail.
Proof.
  intros closed hull H. unfold field_area_hull. destruct (3 <=? List.length hull)%nat eqn:E; [|reflexivity]. apply Nat.leb_le in E.
  destruct H as [-> | H]; [reflexivity|lia].
Qed.
Print Assumptions C120_area_checked.
Lemma octant a b c d : dot (on_sky a b) (on_sky c d) = 0 -> forall x, angle_of (on_sky a b) (on_sky c d) x -> x = PI / 2.
Proof. intros D x X. pose proof PI_RGT_0. apply (angle_fun _ _ _ _ X). split; [lra|]. rewrite D, cos_PI2. reflexivity. Qed.
(* Finding: the triangles are taken as flat whatever their size, and the area of a large field is too small: an eighth of the sphere,
   16200/PI square degrees, is given an area below 4050 of them. *)
Theorem C120_area_refuted : exists area, field_area_hull true [(0, 0); (90, 0); (0, 90); (0, 0)] = Ok area /\ area < 4050 /\ 4050 <= 16200 / PI.
Proof.
  pose proof PI_RGT_0 as P. pose proof PI_4 as P4.
  destruct (C120_area [(0, 0); (90, 0); (0, 90); (0, 0)]) as (l & L & E & _ & H); [cbn; lia|]. eexists. split; [exact E|]. clear E.
  assert (Z0 : forall x, x * PI / 180 = x * (PI / 180)) by (intros; field).
  assert (C0 : cos (radians 0) = 1 /\ sin (radians 0) = 0) by (unfold radians; replace (0 * PI / 180) with 0 by field; rewrite cos_0, sin_0; auto).
  assert (C9 : cos (radians 90) = 0 /\ sin (radians 90) = 1) by (unfold radians; replace (90 * PI / 180) with (PI / 2) by field; rewrite cos_PI2, sin_PI2; auto).
  destruct C0 as [C0 S0], C9 as [C9 S9].
  destruct (H 0%nat) as (s & r0 & d0 & r1 & d1 & r2 & d2 & a & b & c & N & E0 & E1 & E2 & A & B & C & F); [cbn; lia|].
  cbn in E0, E1, E2. injection E0 as <- <-. injection E1 as <- <-. injection E2 as <- <-.
  apply octant in A; [|unfold dot, on_sky, direction; cbn [vx vy vz]; rewrite C0, C9, S0, S9; ring].
  apply octant in B; [|unfold dot, on_sky, direction; cbn [vx vy vz]; rewrite C0, C9, S0, S9; ring].
  apply octant in C; [|unfold dot, on_sky, direction; cbn [vx vy vz]; rewrite C0, C9, S0, S9; ring].
  destruct (H 1%nat) as (t & r0' & d0' & r1' & d1' & r2' & d2' & a' & b' & c' & N' & E0' & E1' & E2' & A' & B' & C' & F'); [cbn; lia|].
  cbn in E0', E1', E2'. injection E0' as <- <-. injection E1' as <- <-. injection E2' as <- <-.
  apply octant in A'; [|unfold dot, on_sky, direction; cbn [vx vy vz]; rewrite C0, C9, S0, S9; ring].
  apply octant in B'; [|unfold dot, on_sky, direction; cbn [vx vy vz]; rewrite C0, C9, S0, S9; ring].
  assert (Zc : c' = 0) by (apply (angle_zero _ _ _ (direction_unit _ _) (direction_unit _ _) C'); reflexivity).
  cbn in L. destruct l as [|x [|y [|z l]]]; try discriminate. cbn in N, N'. injection N as ->. injection N' as ->. cbn [total fold_right].
  destruct F as [F1 F2], F' as [F1' F2']. subst a b c a' b' c'.
  assert (T : t * t = 0) by nra. assert (T0 : t = 0) by (apply Rmult_integral in T; destruct T; assumption). subst t.
  set (q := PI / 2) in *. assert (Q : 0 < q) by (unfold q; lra).
  assert (S : s < q * q / 2). { destruct (Rlt_le_dec s (q * q / 2)) as [K|K]; [exact K|exfalso]. assert (0 < q * q) by nra. assert (0 < q * q * (q * q)) by nra. nra. }
  assert (K : 0 < 180 / PI) by (apply Rdiv_lt_0_compat; lra).
  split.
  - replace 4050 with (q * q / 2 * (180 / PI) * (180 / PI)) by (unfold q; field; lra). replace (s + (0 + 0)) with s by ring. apply Rmult_lt_compat_r; [exact K|]. apply Rmult_lt_compat_r; [exact K|exact S].
  - apply (Rmult_le_reg_r PI); [exact P|]. replace (16200 / PI * PI) with 16200 by (field; lra). lra.
Qed.
Print Assumptions C120_area_refuted.
