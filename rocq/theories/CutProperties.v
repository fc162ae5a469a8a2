(* C98: cutouts of a set of images around a position. *)
From Coq Require Import QArith Qabs Qround Lqa Lia.
From Verif Require Import Base ImageModel ImageSpec ImageProofs ImageProofs3 GenModel DrizProofs12 RegridSpec RegridProofs CutModel CutSpec CutProofs.
Local Open Scope nat_scope.

(* The cutout is a square of 2 hs + 1 pixels, hs the smallest positive number for which it is as
   large as asked.  Its pixel (a, b) is the first finite one of those found at the same offset from
   the pixel of the source in each image that the square touches, the default value standing for
   the pixels that are outside of an image.  If no image is touched, the result is false and a
   square of the default value. *)
Theorem C98_cutout : forall (H : Type) (imgs : list (@image H)) dist (a : Q) h0 gh ra dec size def ira idec,
  undistort dist ra dec = Ok (ira, idec) ->
  (0 < a)%Q -> (Qabs size <= inject_Z (2 ^ 29) * a)%Q -> (gh = true -> imgs <> []) ->
  Forall (fun i => wf (data i) /\ fits (nr (data i)) (nc (data i)) /\ 1 <= nr (data i) /\ 1 <= nc (data i) /\
    (Qabs (fst (ad2xy i ira idec)) <= inject_Z (2 ^ 62))%Q /\ (Qabs (snd (ad2xy i ira idec)) <= inject_Z (2 ^ 62))%Q) imgs ->
  exists hs (pos : @image H -> view),
    ((1 <= hs)%Z /\ (size <= inject_Z (2 * hs) * a)%Q /\ forall k, (1 <= k)%Z -> (size <= inject_Z (2 * k) * a)%Q -> (hs <= k)%Z) /\
    (forall i, seen (pos i) = data i /\ near (fst (ad2xy i ira idec) - 1) (at_x (pos i)) /\ near (snd (ad2xy i ira idec) - 1) (at_y (pos i))) /\
    exists ks ok c hd, get_cutout imgs dist (Some a) h0 gh ra dec size def = Ok (ok, c, hd) /\
      kept (fun i => covers hs (pos i)) imgs ks /\
      (ok = true <-> ks <> []) /\
      square hs c (fun x y => if ok then first_finite (map (fun i => around def hs (pos i) x y) ks) else def) /\
      (* the header: that of the first image touched, with the position of the source in the cutout *)
      (gh = false -> hd = None) /\
      (gh = true -> exists h, hd = Some h /\ crval h = (ra, dec) /\
         (ok = true -> exists i t, ks = i :: t /\ h_wcs h = wcs_of i /\ naxis1 h = nc c /\ naxis2 h = nr c /\
            (fst (crpix h) == fst (ad2xy i ira idec) - inject_Z (at_x (pos i) - hs))%Q /\
            (snd (crpix h) == snd (ad2xy i ira idec) - inject_Z (at_y (pos i) - hs))%Q) /\
         (ok = false -> Some (h_wcs h) = match h0 with Some w => Some w | None => option_map wcs_of (hd_error imgs) end /\
            naxis1 h = 0 /\ naxis2 h = 0 /\ (fst (crpix h) == inject_Z (hs + 1))%Q /\ (snd (crpix h) == inject_Z (hs + 1))%Q)).
Proof.
  intros H imgs dist a h0 gh ra dec size def ira idec Un Ha Sz Gh Fa.
  assert (Ne : ~ (a == 0)%Q) by (intros K; rewrite K in Ha; discriminate).
  assert (B : (Qabs ((1#2) * size / a) <= inject_Z (2 ^ 28))%Q).
  { apply Qabs_Qle_condition in Sz. apply Qabs_Qle_condition.
    assert (E : ((1#2) * size / a * a == (1#2) * size)%Q) by (field; exact Ne).
    change (inject_Z (2 ^ 29)) with 536870912%Q in Sz. change (inject_Z (2 ^ 28)) with 268435456%Q.
    split; apply (Qmult_le_r _ _ a Ha); rewrite E; lra. }
  destruct (half_ok size a Ha) as (hs & E & _ & Hz & Hm).
  { eapply Qle_trans; [exact B|]. discriminate. }
  assert (Hs : (1 <= hs <= 2 ^ 28)%Z).
  { split.
    - unfold half_size in E. destruct (Qeq_bool a 0); [discriminate|]. unfold signed64 in E.
      destruct (_ && _)%bool; [injection E as <-|discriminate]. destruct (Z.gtb_spec 1 (Qceiling ((1#2) * size / a))); lia.
    - apply Hm; [lia|]. apply Qabs_Qle_condition in Sz. change (2 * 2 ^ 28)%Z with (2 ^ 29)%Z. tauto. }
  assert (Fn : fits (Z.to_nat (2 * hs + 1)) (Z.to_nat (2 * hs + 1))).
  { unfold fits. rewrite Z2Nat.id by lia. change (2 ^ 28)%Z with 268435456%Z in Hs. unfold two64. split; [lia|]. split; [lia|]. nia. }
  exists hs, (view_of ira idec). split; [split; [lia|]; split; assumption|].
  split.
  { intros i. split; [reflexivity|]. split; apply near_round. }
  assert (R : forall q, (Qabs q <= inject_Z (2 ^ 62))%Q -> (- two63 <= qround (q - 1) - hs /\ qround (q - 1) + hs < two63)%Z).
  { intros q Hq. apply Qabs_Qle_condition in Hq. pose proof (near_round (q - 1)) as N. unfold near in N. apply Qabs_Qle_condition in N.
    change (inject_Z (2 ^ 62)) with 4611686018427387904%Q in Hq. change (2 ^ 28)%Z with 268435456%Z in Hs. unfold two63.
    assert (A1 : (- 4611686018427387906 <= qround (q - 1))%Z) by (rewrite Zle_Qle; change (inject_Z (-4611686018427387906)) with (-(4611686018427387906))%Q; lra).
    assert (A2 : (qround (q - 1) <= 4611686018427387906)%Z) by (rewrite Zle_Qle; change (inject_Z 4611686018427387906) with 4611686018427387906%Q; lra).
    lia. }
  assert (Fa' : Forall (within hs ira idec) imgs).
  { eapply Forall_impl; [|exact Fa]. cbn beta. intros i (W1 & W2 & W3 & W4 & W5 & W6). unfold within, yof, xof. auto 10. }
  destruct (loop_ok def hs gh ira idec h0 (inject_Z hs + 1, inject_Z hs + 1)%Q (proj1 Hs) Fn imgs [] []
     (Progress None h0 (inject_Z hs + 1, inject_Z hs + 1)%Q) Fa' (kept_nil _)) as (s & ks & E2 & K & S).
  { cbn. auto. }
  cbn [app] in K. unfold get_cutout. rewrite Un. cbn [obind]. rewrite E. cbn [obind]. rewrite E2. cbn [obind]. exists ks.
  destruct ks as [|i ks]; cbn [state_of] in S.
  - destruct S as (S1 & S2 & S3). rewrite S1, S2, S3. rewrite filled_ok by exact Fn.
    assert (Sq : square hs (Img (Z.to_nat (2 * hs + 1)) (Z.to_nat (2 * hs + 1)) (repeat def (Z.to_nat (2 * hs + 1) * Z.to_nat (2 * hs + 1)))) (fun _ _ => def)).
    { unfold square. set (n := Z.to_nat (2 * hs + 1)). apply shows_nat; [reflexivity|reflexivity|apply repeat_length|].
      intros x y Hx Hy. cbn [pix]. apply nth_error_repeat. apply pos_lt; assumption. }
    destruct gh.
    + assert (exists w, match h0 with Some h => Ok h | None => match imgs with i :: _ => Ok (wcs_of i) | [] => CheckFail end end = Ok w /\
         Some w = match h0 with Some w => Some w | None => option_map wcs_of (hd_error imgs) end) as (w & Ew & Ew').
      { destruct h0 as [w|]; [exists w; auto|]. destruct imgs as [|j t]; [destruct (Gh eq_refl); reflexivity|]. exists (wcs_of j). auto. }
      rewrite Ew. cbn [obind fst snd]. eexists false, _, _. split; [reflexivity|]. split; [exact K|]. split; [split; [discriminate|intros Q; destruct (Q eq_refl)]|].
      split; [exact Sq|]. split; [discriminate|]. intros _. eexists. split; [reflexivity|]. split; [reflexivity|]. split; [discriminate|].
      intros _. cbn [h_wcs naxis1 naxis2 crpix fst snd]. rewrite inject_Z_plus. repeat split; try reflexivity. exact Ew'.
    + cbn [obind]. eexists false, _, _. split; [reflexivity|]. split; [exact K|]. split; [split; [discriminate|intros Q; destruct (Q eq_refl)]|].
      split; [exact Sq|]. split; [reflexivity|discriminate].
  - destruct S as ((c & S1 & Sq) & S2 & S3). rewrite S1, S2, S3. destruct gh; cbn [obind fst snd].
    + eexists true, _, _. split; [reflexivity|]. split; [exact K|]. split; [split; [discriminate|reflexivity]|].
      split; [exact Sq|]. split; [discriminate|]. intros _. eexists. split; [reflexivity|]. split; [reflexivity|]. split; [|discriminate].
      intros _. exists i, ks. cbn [h_wcs naxis1 naxis2 crpix fst snd]. unfold view_of, xof, yof. cbn [at_x at_y].
      unfold Z.sub. rewrite !inject_Z_plus, !inject_Z_opp. change (inject_Z 1) with 1%Q. repeat split; try reflexivity; ring.
    + eexists true, _, _. split; [reflexivity|]. split; [exact K|]. split; [split; [discriminate|reflexivity]|].
      split; [exact Sq|]. split; [reflexivity|discriminate].
Qed.
Print Assumptions C98_cutout.

(* With a default value that is not finite, the cutout is a mosaic: each pixel is the first finite
   one found at that place among all images, and is not finite if there is none. *)
Theorem C98_mosaic : forall (H : Type) (imgs : list (@image H)) (a : Q) h0 gh ra dec size,
  (0 < a)%Q -> (Qabs size <= inject_Z (2 ^ 29) * a)%Q -> (gh = true -> imgs <> []) ->
  Forall (fun i => wf (data i) /\ fits (nr (data i)) (nc (data i)) /\ 1 <= nr (data i) /\ 1 <= nc (data i) /\
    (Qabs (fst (ad2xy i ra dec)) <= inject_Z (2 ^ 62))%Q /\ (Qabs (snd (ad2xy i ra dec)) <= inject_Z (2 ^ 62))%Q) imgs ->
  exists hs (pos : @image H -> view) ok c hd,
    (forall i, seen (pos i) = data i /\ near (fst (ad2xy i ra dec) - 1) (at_x (pos i)) /\ near (snd (ad2xy i ra dec) - 1) (at_y (pos i))) /\
    get_cutout imgs None (Some a) h0 gh ra dec size None = Ok (ok, c, hd) /\ (ok = true <-> Exists (fun i => covers hs (pos i)) imgs) /\
    square hs c (fun x y => first_finite (map (fun i =>
      match px (data i) (at_y (pos i) + x - hs) (at_x (pos i) + y - hs) with Some q => q | None => None end) imgs)).
Proof.
  intros H imgs a h0 gh ra dec size Ha Sz Gh Fa.
  destruct (C98_cutout H imgs None a h0 gh ra dec size None ra dec eq_refl Ha Sz Gh Fa) as (hs & pos & (Hs & _) & P & ks & ok & c & hd & E & K & O & (S1 & S2 & S3 & S4) & _).
  exists hs, pos, ok, c, hd. split; [exact P|]. split; [exact E|]. split.
  - rewrite O. clear - K. induction K as [|v l r Hv K IH|v l r Hv K IH].
    + split; [intros N; destruct (N eq_refl)|intros N; inversion N].
    + split; [intros _; constructor; exact Hv|discriminate].
    + rewrite IH. split; intros N; [constructor 2; exact N|]. inversion N; [contradiction|assumption].
  - assert (M : forall x y, (0 <= x < 2 * hs + 1)%Z -> (0 <= y < 2 * hs + 1)%Z ->
      first_finite (map (fun i => around None hs (pos i) x y) ks) =
      first_finite (map (fun i => match px (data i) (at_y (pos i) + x - hs) (at_x (pos i) + y - hs) with Some q => q | None => None end) imgs)).
    { intros x y Hx Hy. clear - K P Hx Hy. induction K as [|v l r Hv K IH|v l r Hv K IH]; [reflexivity| |]; cbn [map first_finite].
      - rewrite IH. unfold around. destruct (P v) as (-> & _). reflexivity.
      - rewrite IH, px_out; [reflexivity|]. intros [A B]. apply Hv. exists (at_y (pos v) + x - hs)%Z, (at_x (pos v) + y - hs)%Z.
        destruct (P v) as (-> & _). lia. }
    unfold square. split; [exact S1|]. split; [exact S2|]. split; [exact S3|]. intros x y Hx Hy. rewrite S4 by assumption. f_equal.
    rewrite Z2Nat.id in Hx, Hy by lia. rewrite <- M by assumption. destruct ok; [reflexivity|].
    destruct ks as [|k ks]; [reflexivity|]. exfalso. assert (false = true) by (apply O; discriminate). discriminate.
Qed.
Print Assumptions C98_mosaic.

(* The correction of the position for a distortion is read from the map at the nearest pixel, and
   is left out for a position outside of the map. *)
Theorem C98_distortion : forall (d : distortion) ra dec,
  wf (dra d) -> wf (ddec d) -> nr (ddec d) = nr (dra d) -> nc (ddec d) = nc (dra d) ->
  let x := (fst (dxy d ra dec) - 1)%Q in let y := (snd (dxy d ra dec) - 1)%Q in
  let n := inject_Z (Z.of_nat (nr (dra d))) in let m := inject_Z (Z.of_nat (nc (dra d))) in
  ((- (1#2) < x < m - (1#2))%Q /\ (- (1#2) < y < n - (1#2))%Q /\
   exists i j a b, near y i /\ near x j /\ px (dra d) i j = Some a /\ px (ddec d) i j = Some b /\
     undistort (Some d) ra dec = Ok (ra - a, dec - b)%Q) \/
  (~ ((- (1#2) < x < m - (1#2))%Q /\ (- (1#2) < y < n - (1#2))%Q) /\ undistort (Some d) ra dec = Ok (ra, dec)).
Proof.
  intros d ra dec W1 W2 E1 E2 x y n m. unfold undistort. fold x y. cbv zeta. fold n m.
  assert (Lt : forall p q, (p < q)%Q <-> negb (Qle_bool q p) = true).
  { intros p q. destruct (Qle_bool q p) eqn:E; split; intros K; try discriminate; try reflexivity.
    - apply Qle_bool_iff in E. lra.
    - apply Qnot_le_lt. intros Q. apply Qle_bool_iff in Q. congruence. }
  destruct (negb (Qle_bool x (- (1 # 2))) && negb (Qle_bool y (- (1 # 2))) && negb (Qle_bool (m - (1 # 2)) x) && negb (Qle_bool (n - (1 # 2)) y))%bool eqn:G.
  - left. apply andb_prop in G. destruct G as [G G4]. apply andb_prop in G. destruct G as [G G3]. apply andb_prop in G. destruct G as [G1 G2].
    apply Lt in G1, G2, G3, G4. split; [split; assumption|]. split; [split; assumption|].
    assert (Rd : forall t k, (- (1#2) < t)%Q -> (t < inject_Z (Z.of_nat k) - (1#2))%Q -> (0 <= qround t < Z.of_nat k)%Z).
    { intros t k T1 T2. pose proof (near_round t) as N. unfold near in N. apply Qabs_Qle_condition in N. split.
      - assert (K : (inject_Z (-1) < inject_Z (qround t))%Q) by (change (inject_Z (-1)) with (-(1))%Q; lra). rewrite <- Zlt_Qlt in K. lia.
      - assert (K : (inject_Z (qround t) < inject_Z (Z.of_nat k))%Q) by lra. rewrite <- Zlt_Qlt in K. exact K. }
    pose proof (Rd x _ G1 G3) as Rx. pose proof (Rd y _ G2 G4) as Ry.
    destruct (pget_some (dra d) (Z.to_nat (qround y)) (Z.to_nat (qround x)) W1) as (a & A1 & A2); [lia|lia|].
    destruct (pget_some (ddec d) (Z.to_nat (qround y)) (Z.to_nat (qround x)) W2) as (b & B1 & B2); [lia|lia|].
    exists (qround y), (qround x), a, b. split; [apply near_round|]. split; [apply near_round|].
    rewrite !Z2Nat.id in A2, B2 by lia. split; [exact A2|]. split; [exact B2|]. rewrite E1, E2.
    destruct (Nat.ltb_spec (Z.to_nat (qround y)) (nr (dra d))); [|lia]. destruct (Nat.ltb_spec (Z.to_nat (qround x)) (nc (dra d))); [|lia].
    cbn [andb]. rewrite A1, B1. reflexivity.
  - right. split; [|reflexivity]. intros [[K1 K2] [K3 K4]]. apply Lt in K1, K2, K3, K4. rewrite K1, K2, K3, K4 in G. discriminate.
Qed.
Print Assumptions C98_distortion.

(* An image of two pixels, the second being 1; the source is in the first *)
Definition left_im : @image nat := Image (Img 1 2 [Some 5; Some 1])%Q (fun ra dec => (ra + 1, dec + 1))%Q 7.
(* a lone pixel, to the left of the source *)
Definition right_im : @image nat := Image (Img 1 1 [Some 9])%Q (fun ra dec => (ra + 2, dec + 1))%Q 8.

Example C98_mosaic_ex : exists h, get_cutout [left_im; right_im] None (Some 1%Q) None true 0 0 2 None =
    Ok (true, Img 3 3 [None; None; None; Some 9; Some 5; Some 1; None; None; None]%Q, Some h) /\
  h_wcs h = 7 /\ (fst (crpix h) == 2)%Q /\ (snd (crpix h) == 2)%Q.
Proof. eexists. split; [vm_compute; reflexivity|]. repeat split; apply Qeq_bool_iff; vm_compute; reflexivity. Qed.
Example C98_outside_ex : get_cutout [left_im] None (Some 1%Q) None false 8 0 2 (Some 4%Q) = Ok (false, Img 3 3 (repeat (Some 4%Q) 9), None).
Proof. vm_compute. reflexivity. Qed.
(* half a pixel more: the square grows by one pixel on each side *)
Example C98_size_ex : half_size 2 (Some 1%Q) = Ok 1%Z /\ half_size (5#2) (Some 1%Q) = Ok 2%Z /\ half_size 0 (Some 1%Q) = Ok 1%Z.
Proof. vm_compute. repeat split. Qed.
Example C98_distortion_ex : undistort (Some (Distortion (Img 1 2 [1; 2])%Q (Img 1 2 [3; 4])%Q (fun ra dec => (ra + 1, dec + 1))%Q)) 1 0 = Ok (-1, -4)%Q /\
  undistort (Some (Distortion (Img 1 2 [1; 2])%Q (Img 1 2 [3; 4])%Q (fun ra dec => (ra + 1, dec + 1))%Q)) 2 0 = Ok (2, 0)%Q.
Proof. vm_compute. split; reflexivity. Qed.

(* Finding: with a finite default value, 0 for instance, the part of the square that is outside of
   the first image is not taken from the others, which have finite values there. *)
Theorem C98_default_refuted : exists (i j : @image nat) c hd,
  get_cutout [i; j] None (Some 1%Q) None false 0 0 2 (Some 0%Q) = Ok (true, c, hd) /\ px c 1 0 = Some (Some 0%Q) /\
  (exists c' hd', get_cutout [j] None (Some 1%Q) None false 0 0 2 (Some 0%Q) = Ok (true, c', hd') /\ px c' 1 0 = Some (Some 9%Q)) /\
  (exists c' hd', get_cutout [j; i] None (Some 1%Q) None false 0 0 2 (Some 0%Q) = Ok (true, c', hd') /\ px c' 1 1 = Some (Some 0%Q) /\ px c 1 1 = Some (Some 5%Q)).
Proof.
  exists left_im, right_im. do 2 eexists. split; [vm_compute; reflexivity|]. split; [reflexivity|]. split.
  - do 2 eexists. split; [vm_compute; reflexivity|reflexivity].
  - do 2 eexists. split; [vm_compute; reflexivity|]. split; reflexivity.
Qed.
Print Assumptions C98_default_refuted.

(* Finding: for a source outside of all images the header has no pixel at all, since its dimensions
   are written before the placeholder is made; and the projection of the caller's header is kept. *)
Theorem C98_uncovered_header_refuted : forall (H : Type) (w : H), exists (imgs : list (@image H)) c h,
  get_cutout imgs None (Some 1%Q) (Some w) true 8 0 2 None = Ok (false, c, Some h) /\
  nr c = 3 /\ nc c = 3 /\ naxis1 h = 0 /\ naxis2 h = 0 /\ h_wcs h = w.
Proof.
  intros H w. exists [Image (Img 1 1 [Some 9])%Q (fun ra dec => (ra + 1, dec + 1))%Q w]. do 2 eexists.
  split; [vm_compute; reflexivity|]. repeat split.
Qed.
Print Assumptions C98_uncovered_header_refuted.

(* Finding: a cutout from images with no pixel size, or a null one, converts a value that is not
   finite to an integer. *)
Theorem C98_no_scale_UB : forall (H : Type) (imgs : list (@image H)) h0 gh ra dec size def,
  get_cutout imgs None None h0 gh ra dec size def = UB /\ get_cutout imgs None (Some 0%Q) h0 gh ra dec size def = UB.
Proof. intros. split; reflexivity. Qed.
Print Assumptions C98_no_scale_UB.

(* Finding: asking for a header when there are no images is a failure, unless the caller's header
   has something in it. *)
Theorem C98_no_images_abort : forall (H : Type) (a : Q) ra dec size def, (0 < a)%Q -> (Qabs size <= inject_Z (2 ^ 29) * a)%Q ->
  get_cutout (@nil (@image H)) None (Some a) None true ra dec size def = CheckFail /\
  exists c, get_cutout (@nil (@image H)) None (Some a) None false ra dec size def = Ok (false, c, None).
Proof.
  intros H a ra dec size def Ha Sz. split.
  - destruct (C98_cutout H [] None a None false ra dec size def ra dec eq_refl Ha Sz) as (hs & pos & _ & _ & ks & ok & c & hd & E & _); [discriminate|constructor|].
    unfold get_cutout in *. cbn [undistort obind] in *. destruct (half_size size (Some a)); [reflexivity|discriminate..].
  - destruct (C98_cutout H [] None a None false ra dec size def ra dec eq_refl Ha Sz) as (hs & pos & _ & _ & ks & ok & c & hd & E & K & O & _ & G & _); [discriminate|constructor|].
    inversion K; subst. exists c. rewrite E, G by reflexivity. destruct ok; [|reflexivity]. exfalso. apply O; reflexivity.
Qed.
Print Assumptions C98_no_images_abort.

(* Finding: a source that projects further than any integer is undefined behaviour. *)
Theorem C98_far_UB : forall (H : Type) (i : @image H) imgs (a : Q) h0 gh ra dec size def,
  (0 < a)%Q -> (Qabs size <= inject_Z (2 ^ 29) * a)%Q -> (inject_Z two63 + 2 <= fst (ad2xy i ra dec))%Q ->
  get_cutout (i :: imgs) None (Some a) h0 gh ra dec size def = UB.
Proof.
  intros H i imgs a h0 gh ra dec size def Ha Sz Far.
  destruct (C98_cutout H [] None a None false ra dec size def ra dec eq_refl Ha Sz) as (hs & pos & _ & _ & ks & ok & c & hd & E & _); [discriminate|constructor|].
  unfold get_cutout in *. cbn [undistort obind] in *. destruct (half_size size (Some a)) as [k| | | |]; try discriminate. cbn [obind].
  cbn [ofold]. unfold next_image at 1. destruct (ad2xy i ra dec) as [p q]. cbn [fst] in Far. cbv zeta.
  assert (R : signed64 (qround (p - 1)) = UB).
  { unfold signed64. pose proof (near_round (p - 1)) as N. unfold near in N. apply Qabs_Qle_condition in N.
    assert (K : (two63 <= qround (p - 1))%Z) by (rewrite Zle_Qle; lra).
    destruct (((- two63 <=? qround (p - 1)) && (qround (p - 1) <? two63))%Z)%bool eqn:G; [lia|reflexivity]. }
  rewrite R. reflexivity.
Qed.
Print Assumptions C98_far_UB.
