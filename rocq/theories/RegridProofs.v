(* Proofs about regridding by interpolation. *)
From Coq Require Import QArith Qabs Qround Lqa Setoid Lia.
From Verif Require Import Base IndexProofs VecProofs VecProofs2 MatProofs ImageModel ImageSpec ImageProofs ImageProofs3 GenModel.
From Verif Require SplineModel SplineProofs4 SplineProofs5 BilinModel.
From Verif Require Import SplineSpec DrizModel DrizSpec DrizSpec2 DrizProofs8 DrizProofs9 DrizProofs10 DrizProofs11 DrizProofs12 RegridModel RegridSpec.
Local Open Scope Q_scope.

Lemma at_pixel_ok v i j : wf v -> fits (nr v) (nc v) -> (0 <= i < Z.of_nat (nr v))%Z -> (0 <= j < Z.of_nat (nc v))%Z ->
  exists a, px v i j = Some a /\ at_pixel v i j = Ok a.
Proof.
  intros W (F1 & F2 & F3) Hi Hj. destruct (px_some v i j W Hi Hj) as (a & E). exists a. split; [exact E|].
  destruct (px_inv _ _ _ _ E) as (_ & _ & N). unfold at_pixel.
  assert (Bd : (0 <= i * Z.of_nat (nc v) + j < Z.of_nat (nr v) * Z.of_nat (nc v))%Z) by nia.
  rewrite wrap64_small by (unfold two64; lia). unfold wf in W.
  destruct (Z.ltb_spec (i * Z.of_nat (nc v) + j) (Z.of_nat (length (pix v)))) as [_|K]; [|rewrite W, Nat2Z.inj_mul in K; lia].
  rewrite zpos_nat by lia. unfold oget. rewrite N. reflexivity.
Qed.
Lemma near_round t : near t (qround t).
Proof.
  unfold near, qround. destruct (Qle_bool 0 t) eqn:E.
  - pose proof (SplineProofs4.floor_le (t + (1#2))). pose proof (SplineProofs4.floor_lt (t + (1#2))).
    apply Qabs_Qle_condition. split; lra.
  - pose proof (Qle_ceiling (t - (1#2))). pose proof (Qceiling_lt (t - (1#2))) as K.
    unfold Z.sub in K. rewrite inject_Z_plus, inject_Z_opp in K. change (inject_Z 1) with 1 in K. apply Qabs_Qle_condition. split; lra.
Qed.
Definition mod1 (t : Q) : Prop := - inject_Z (2 ^ 62) <= t /\ t <= inject_Z (2 ^ 62).
Lemma big62 : inject_Z (2 ^ 62) == 4611686018427387904.
Proof. reflexivity. Qed.
Lemma big63 : inject_Z two63 == 9223372036854775808.
Proof. reflexivity. Qed.
Lemma round64 t : mod1 t -> signed64 (qround t) = Ok (qround t).
Proof.
  intros [A B]. rewrite big62 in A, B. pose proof (near_round t) as N. unfold near in N. apply Qabs_Qle_condition in N.
  assert (L : (- 9223372036854775808 <= qround t < 9223372036854775808)%Z).
  { split.
    - rewrite Zle_Qle. change (inject_Z (-9223372036854775808)) with (-(9223372036854775808)). lra.
    - rewrite Zlt_Qlt. change (inject_Z 9223372036854775808) with 9223372036854775808. lra. }
  unfold signed64, two63. destruct (Z.leb_spec (- (9223372036854775808)) (qround t)); [|lia].
  destruct (Z.ltb_spec (qround t) 9223372036854775808); [reflexivity|lia].
Qed.
Lemma floor64_mod t : mod1 t -> SplineModel.floor64 t = Ok (Qfloor t).
Proof. intros [A B]. apply SplineProofs4.floor64_ok. rewrite big62 in A, B. rewrite big63. split; lra. Qed.
Lemma cell_floor t : cell_of t (Qfloor t).
Proof. split; [apply SplineProofs4.floor_le|apply SplineProofs4.floor_lt]. Qed.

Lemma nearest_ok v x y : wf v -> fits (nr v) (nc v) -> mod1 x -> mod1 y ->
  exists r, regrid_nearest v x y = Ok r /\ nearest_value v x y r.
Proof.
  intros W F Mx My. unfold regrid_nearest. rewrite (round64 x Mx). cbn [obind]. rewrite (round64 y My). cbn [obind].
  destruct (((0 <? qround x) && (qround x <? Z.of_nat (nc v)) && (0 <? qround y) && (qround y <? Z.of_nat (nr v)))%Z)%bool eqn:G.
  - assert (K : (0 < qround y < Z.of_nat (nr v) /\ 0 < qround x < Z.of_nat (nc v))%Z) by lia.
    destruct (at_pixel_ok v (qround y) (qround x) W F) as (a & E & P); [lia|lia|]. exists a. split; [exact P|].
    exists (qround y), (qround x). split; [apply near_round|]. split; [apply near_round|]. left. auto.
  - exists None. split; [reflexivity|]. exists (qround y), (qround x). split; [apply near_round|]. split; [apply near_round|].
    right. split; [lia|reflexivity].
Qed.

Lemma linear_ok def v x y : wf v -> fits (nr v) (nc v) -> (1 <= nr v)%nat -> (1 <= nc v)%nat -> mod1 x -> mod1 y ->
  exists r, bilinear_strict v y x def = Ok r /\ linear_value def v x y r.
Proof.
  intros W F N1 N2 Mx My. unfold bilinear_strict. rewrite (floor64_mod y My). cbn [obind]. rewrite (floor64_mod x Mx). cbn [obind].
  assert (F' := F). destruct F' as (F1 & F2 & F3). rewrite !wrap64_small by lia.
  set (i := Qfloor y). set (j := Qfloor x).
  destruct (((i <? 0) || (Z.of_nat (nr v) - 1 <=? i) || (j <? 0) || (Z.of_nat (nc v) - 1 <=? j))%Z)%bool eqn:G.
  - exists def. split; [reflexivity|]. exists i, j. split; [apply cell_floor|]. split; [apply cell_floor|]. right. right. split; [lia|reflexivity].
  - assert (A : (0 <= i /\ i + 1 < Z.of_nat (nr v) /\ 0 <= j /\ j + 1 < Z.of_nat (nc v))%Z) by lia.
    destruct (at_pixel_ok v i j W F) as (v1 & P1 & ->); [lia|lia|]. cbn [obind].
    destruct (at_pixel_ok v i (j + 1) W F) as (v2 & P2 & ->); [lia|lia|]. cbn [obind].
    destruct (at_pixel_ok v (i + 1) j W F) as (v3 & P3 & ->); [lia|lia|]. cbn [obind].
    destruct (at_pixel_ok v (i + 1) (j + 1) W F) as (v4 & P4 & ->); [lia|lia|]. cbn [obind].
    eexists. split; [reflexivity|]. exists i, j. split; [apply cell_floor|]. split; [apply cell_floor|]. cbv zeta.
    destruct v1 as [a|]; [|right; left; split; [exact A|]; split; [exists i, j; auto|reflexivity]].
    destruct v2 as [b|]; [|right; left; split; [exact A|]; split; [exists i, (j + 1)%Z; auto|reflexivity]].
    destruct v3 as [c|]; [|right; left; split; [exact A|]; split; [exists (i + 1)%Z, j; auto|reflexivity]].
    destruct v4 as [d|]; [|right; left; split; [exact A|]; split; [exists (i + 1)%Z, (j + 1)%Z; auto|reflexivity]].
    left. split; [exact A|]. exists a, b, c, d. eexists. repeat (split; [eassumption|]). split; [reflexivity|].
    unfold BilinModel.bilin4, mix. ring.
Qed.

Lemma all_some_ok {A} (l : list (option A)) l' : all_some l = Some l' -> l = map Some l'.
Proof.
  revert l'. induction l as [|[a|] l IH]; intros l'; cbn [all_some]; [intros [= <-]; reflexivity| |discriminate].
  destruct (all_some l) as [t|]; [|discriminate]. intros [= <-]. cbn [map]. rewrite (IH t eq_refl). reflexivity.
Qed.
Lemma all_some_map {A} (l : list A) : all_some (map Some l) = Some l.
Proof. induction l as [|a l IH]; [reflexivity|]. cbn [map all_some]. rewrite IH. reflexivity. Qed.
Lemma all_some_none {A} (l : list (option A)) : all_some l = None -> In None l.
Proof.
  induction l as [|[a|] l IH]; cbn [all_some]; [discriminate| |left; reflexivity].
  destruct (all_some l) as [t|]; [discriminate|]. intros _. right. apply IH. reflexivity.
Qed.
Lemma all_some_in {A} (l : list (option A)) : In None l -> all_some l = None.
Proof.
  induction l as [|[a|] l IH]; [intros []| |reflexivity]. intros [E|I]; [discriminate|]. cbn [all_some]. rewrite (IH I). reflexivity.
Qed.

(* a spline through four values *)
Lemma spline4_ok (g : nat -> option Q) t : 1 <= t -> t < 2 ->
  (exists f q, (forall m, (m < 4)%nat -> g m = Some (f m)) /\ spline4 (map g (seq 0 4)) t = Ok (Some q) /\ natural_value 3 unit_node f t q) \/
  ((exists m, (m < 4)%nat /\ g m = None) /\ spline4 (map g (seq 0 4)) t = Ok None).
Proof.
  intros T1 T2. unfold spline4. destruct (all_some (map g (seq 0 4))) as [l|] eqn:E.
  - left. apply all_some_ok in E. assert (Ll : length l = 4%nat).
    { rewrite <- (map_length Some l), <- E. reflexivity. }
    destruct l as [|a [|b [|c [|d [|]]]]]; try discriminate Ll. cbn [map seq] in E. injection E as E0 E1 E2 E3.
    destruct (SplineProofs4.spline_u_ok [a; b; c; d] t) as (q & Eq & Nq); [cbn; lia| |].
    { apply SplineProofs5.small_range. split; lra. }
    exists (node [a; b; c; d]), q. split; [|split; [exact Eq|exact Nq]].
    intros m Hm. do 4 (destruct m as [|m]; [assumption|]). lia.
  - right. split; [|reflexivity]. apply all_some_none in E. apply in_map_iff in E. destruct E as (m & Em & Im).
    apply in_seq in Im. exists m. split; [lia|exact Em].
Qed.

Lemma cubic_ok def v x y : wf v -> fits (nr v) (nc v) -> (2 <= nr v)%nat -> (2 <= nc v)%nat -> mod1 x -> mod1 y ->
  exists r, bicubic_strict v y x def = Ok r /\ cubic_value def v x y r.
Proof.
  intros W F N1 N2 Mx My. unfold bicubic_strict. rewrite (floor64_mod y My). cbn [obind]. rewrite (floor64_mod x Mx). cbn [obind].
  assert (F' := F). destruct F' as (F1 & F2 & F3). rewrite !wrap64_small by lia.
  assert (Ci := cell_floor y). assert (Cj := cell_floor x). set (i := Qfloor y) in *. set (j := Qfloor x) in *.
  destruct (((i <=? 0) || (Z.of_nat (nr v) - 2 <=? i) || (j <=? 0) || (Z.of_nat (nc v) - 2 <=? j))%Z)%bool eqn:G.
  - exists def. split; [reflexivity|]. exists i, j. split; [exact Ci|]. split; [exact Cj|]. right. right. split; [lia|reflexivity].
  - assert (A : (1 <= i /\ i + 2 < Z.of_nat (nr v) /\ 1 <= j /\ j + 2 < Z.of_nat (nc v))%Z) by lia.
    set (g := fun k m => match px v (i - 1 + Z.of_nat k) (j - 1 + Z.of_nat m) with Some a => a | None => None end).
    assert (Hg : forall k m, (k < 4)%nat -> (m < 4)%nat -> px v (i - 1 + Z.of_nat k) (j - 1 + Z.of_nat m) = Some (g k m) /\
                   at_pixel v (Z.of_nat k + i - 1) (Z.of_nat m + j - 1) = Ok (g k m)).
    { intros k m Hk Hm. destruct (at_pixel_ok v (Z.of_nat k + i - 1) (Z.of_nat m + j - 1) W F) as (a & P & E); [lia|lia|].
      unfold g. replace (i - 1 + Z.of_nat k)%Z with (Z.of_nat k + i - 1)%Z by lia. replace (j - 1 + Z.of_nat m)%Z with (Z.of_nat m + j - 1)%Z by lia.
      rewrite P. auto. }
    destruct Ci as [Ci1 Ci2]. destruct Cj as [Cj1 Cj2].
    assert (Rw : forall k, (k < 4)%nat -> exists r,
       (tmpy <- omapl (fun iy => at_pixel v (Z.of_nat k + i - 1) (Z.of_nat iy + j - 1)) (seq 0 4) ;; spline4 tmpy (x - inject_Z j + 1)) = Ok r /\
       ((exists f q, r = Some q /\ (forall m, (m < 4)%nat -> g k m = Some (f m)) /\ natural_value 3 unit_node f (x - inject_Z j + 1) q) \/
        (r = None /\ exists m, (m < 4)%nat /\ g k m = None))).
    { intros k Hk. rewrite (omapl_map _ _ _ (g k)) by (intros m Im; apply in_seq in Im; apply Hg; lia). cbn [obind].
      destruct (spline4_ok (g k) (x - inject_Z j + 1)) as [(f & q & Hf & E & N)|(M & E)]; [lra|lra| |]; rewrite E; eexists; (split; [reflexivity|]).
      - left. exists f, q. auto.
      - right. auto. }
    destruct (Rw 0%nat ltac:(lia)) as (r0 & E0 & C0). destruct (Rw 1%nat ltac:(lia)) as (r1 & E1 & C1).
    destruct (Rw 2%nat ltac:(lia)) as (r2 & E2 & C2). destruct (Rw 3%nat ltac:(lia)) as (r3 & E3 & C3).
    set (rr := fun k => nth k [r0; r1; r2; r3] None).
    rewrite (omapl_map _ _ _ rr).
    2: { intros k Ik. apply in_seq in Ik. do 4 (destruct k as [|k]; [assumption|]). lia. }
    cbn [obind].
    assert (CC : forall k, (k < 4)%nat -> (exists f q, rr k = Some q /\ (forall m, (m < 4)%nat -> g k m = Some (f m)) /\ natural_value 3 unit_node f (x - inject_Z j + 1) q) \/
        (rr k = None /\ exists m, (m < 4)%nat /\ g k m = None)).
    { intros k Hk. do 4 (destruct k as [|k]; [assumption|]). lia. }
    destruct (spline4_ok rr (y - inject_Z i + 1)) as [(p & q & Hp & E & N)|((k & Hk & Ek) & E)]; [lra|lra| |]; rewrite E.
    + exists (Some q). split; [reflexivity|]. exists i, j. split; [split; assumption|]. split; [split; assumption|]. left. split; [exact A|].
      exists (fun k m => match g k m with Some a => a | None => 0 end), p, q. split; [|split; [|split; [exact N|reflexivity]]].
      * intros k m Hk Hm. rewrite (proj1 (Hg k m Hk Hm)). destruct (CC k Hk) as [(f & q' & Er & Hf & _)|(Er & _)].
        -- rewrite (Hf m Hm). reflexivity.
        -- rewrite (Hp k Hk) in Er. discriminate.
      * intros k Hk. destruct (CC k Hk) as [(f & q' & Er & Hf & Nf)|(Er & _)]; [|rewrite (Hp k Hk) in Er; discriminate].
        rewrite (Hp k Hk) in Er. injection Er as <-.
        apply (SplineProofs5.natural_value_ext 3 unit_node f); [lia| |exact Nf]. intros m Hm. rewrite (Hf m) by lia. reflexivity.
    + exists None. split; [reflexivity|]. exists i, j. split; [split; assumption|]. split; [split; assumption|]. right. left. split; [exact A|].
      split; [|reflexivity]. destruct (CC k Hk) as [(f & q & Er & _)|(_ & m & Hm & Em)]; [congruence|].
      exists k, m. split; [exact Hk|]. split; [exact Hm|]. rewrite (proj1 (Hg k m Hk Hm)), Em. reflexivity.
Qed.

Lemma sample_ok m v x y : wf v -> fits (nr v) (nc v) -> enough m v -> mod1 x -> mod1 y ->
  exists r, sample m v x y = Ok r /\ interpolated m v x y r.
Proof.
  intros W F E Mx My. destruct m; cbn [sample interpolated enough] in *.
  - apply nearest_ok; assumption.
  - destruct E. apply linear_ok; assumption.
  - destruct E. apply cubic_ok; assumption.
Qed.
