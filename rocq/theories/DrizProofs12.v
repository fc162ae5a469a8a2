(* Proofs about the whole image, continued. *)
From Coq Require Import QArith Qabs Qround Lqa Setoid Morphisms Qminmax Lia.
From Verif Require Import Base ImageModel ImageSpec ImageProofs ImageProofs3.
From Verif Require Import DrizModel DrizSpec DrizProofs DrizProofs2 DrizProofs3 DrizProofs4 DrizProofs5 DrizProofs6 DrizProofs7 DrizProofs8 DrizProofs9 DrizProofs10 DrizProofs11.
Local Open Scope Q_scope.

(* --- division by the weights --- *)
Lemma combine_nth {A B} (l : list A) (l' : list B) i a b : nth_error l i = Some a -> nth_error l' i = Some b ->
  nth_error (combine l l') i = Some (a, b).
Proof.
  revert l' i. induction l as [|x l IH]; intros [|y l'] [|i] H K; cbn in *; try discriminate; [congruence|].
  apply IH; assumption.
Qed.
Lemma px_inv {A} (m : img A) y x (a : A) : px m y x = Some a ->
  (0 <= y < Z.of_nat (nr m))%Z /\ (0 <= x < Z.of_nat (nc m))%Z /\ nth_error (pix m) (Z.to_nat y * nc m + Z.to_nat x) = Some a.
Proof.
  unfold px. destruct (Z.leb_spec 0 y), (Z.ltb_spec y (Z.of_nat (nr m))), (Z.leb_spec 0 x), (Z.ltb_spec x (Z.of_nat (nc m)));
    cbn [andb]; try discriminate. intros E. repeat split; auto.
Qed.
Lemma divide_px h w s x y r k : good h w s -> px (fst s) y x = Some r -> px (snd s) y x = Some k ->
  good h w (apply_weights s) /\ px (fst (apply_weights s)) y x = Some (fdiv r (Some k)) /\ px (snd (apply_weights s)) y x = Some k.
Proof.
  intros (G1 & G2 & G3 & G4 & G5 & G6) R K. destruct s as [res wei]. cbn [fst snd] in *.
  destruct (px_inv _ _ _ _ R) as (Y & X & Er). destruct (px_inv _ _ _ _ K) as (Y' & X' & Ek).
  unfold apply_weights. cbn [fst snd]. split; [|split; [|exact K]].
  - unfold good. cbn [fst snd nr nc]. repeat split; auto. unfold wf in *. cbn [pix nr nc]. rewrite map_length, combine_length, G3, G6, G1, G2, G4, G5. lia.
  - unfold px. cbn [nr nc pix].
    destruct (Z.leb_spec 0 y), (Z.ltb_spec y (Z.of_nat (nr res))), (Z.leb_spec 0 x), (Z.ltb_spec x (Z.of_nat (nc res))); cbn [andb]; try lia.
    rewrite nth_error_map. rewrite G5, <- G2 in Ek. rewrite (combine_nth _ _ _ _ _ Er Ek). reflexivity.
Qed.
Lemma good_divide h w s : good h w s -> good h w (apply_weights s).
Proof.
  intros (G1 & G2 & G3 & G4 & G5 & G6). destruct s as [res wei]. unfold good in *. cbn [fst snd apply_weights nr nc] in *.
  repeat split; auto. unfold wf in *. cbn [pix nr nc]. rewrite map_length, combine_length, G3, G6, G1, G2, G4, G5. lia.
Qed.
Lemma fdiv_ratio r k : is_ratio r k (fdiv r (Some k)).
Proof.
  unfold is_ratio, fdiv. destruct r as [q|]; [|exact I]. destruct (Qeq_bool k 0) eqn:E.
  - apply Qeq_bool_iff, E.
  - apply Qeq_bool_neq in E. split; [exact E|]. field. exact E.
Qed.
Lemma filled_px {A} (a : A) h w x y : on_image h w x y -> px (Img h w (repeat a (h * w))) y x = Some a.
Proof.
  intros [H1 H2]. unfold px. cbn [nr nc pix].
  destruct (Z.leb_spec 0 y), (Z.ltb_spec y (Z.of_nat h)), (Z.leb_spec 0 x), (Z.ltb_spec x (Z.of_nat w)); cbn [andb]; try lia.
  apply nth_error_repeat. apply pos_lt; lia.
Qed.

(* the projection of a pixel *)
Definition proj_of (pr : params) (s2d : s2d_map) (p : nat * nat) : list point :=
  if dest_pixfrac pr then shrunk (pixfrac pr) (footprint s2d 1 (inject_Z (Z.of_nat (snd p))) (inject_Z (Z.of_nat (fst p))))
  else footprint s2d (pixfrac pr) (inject_Z (Z.of_nat (snd p))) (inject_Z (Z.of_nat (fst p))).
Definition outcome_is (o : Z) (pr : params) (s2d : s2d_map) (imgs : img (option Q)) (dh dw : nat) (s : state)
  (W : nat * nat -> Z * Z -> Q) : Prop :=
  good dh dw s /\
  (forall p, In p (pixels (nr imgs) (nc imgs)) -> spread (inject_Z o) (proj_of pr s2d p) dh dw (W p)) /\
  (forall x y, on_image dh dw x y -> exists r v k, px (fst s) y x = Some v /\ px (snd s) y x = Some k /\
     collects (contribs imgs o (proj_of pr s2d) (pixfrac pr * pixfrac pr) (pixels (nr imgs) (nc imgs)) W x y) r k /\ is_ratio r k v).

Section Regrid.
Variable pr : params.
Variable s2d_wcs : s2d_map.
Variable larea : Q.
Variable imgs : img (option Q).
Variables dh dw : nat.
Hypothesis wfi : wf imgs.
Hypothesis Hfit : fits dh dw.
Hypothesis Hh : (Z.of_nat dh < two63)%Z.
Hypothesis Hw : (Z.of_nat dw < two63)%Z.
Variable o : Z.
Hypothesis o_unit : (o = 1 \/ o = -1)%Z.

Lemma loops_ok s2d res wei : plane_map s2d -> filled (Some 0) dh dw = Ok res -> filled 0 dh dw = Ok wei ->
  (forall p, In p (pixels (nr imgs) (nc imgs)) -> strictly_convex (inject_Z o) (proj_of pr s2d p) /\ Forall moderate (proj_of pr s2d p)) ->
  (linearize pr = true -> forall p, In p (pixels (nr imgs) (nc imgs)) -> larea == quad_area (inject_Z o) (proj_of pr s2d p)) ->
  exists pl s W, ofold (drizzle_row pr s2d larea imgs) (seq 0 (nr imgs)) (corners s2d (nc imgs) (- (1#2)), (res, wei)) = Ok (pl, s) /\
    outcome_is o pr s2d imgs dh dw (apply_weights s) W.
Proof.
  intros Pm Er Ew Reg La. rewrite filled_ok in Er by exact Hfit. rewrite filled_ok in Ew by exact Hfit. injection Er as <-. injection Ew as <-.
  assert (Ipx : forall iy ix, (iy < nr imgs)%nat -> (ix < nc imgs)%nat -> In (iy, ix) (pixels (nr imgs) (nc imgs))).
  { intros iy ix A B. unfold pixels. apply in_prod_iff. rewrite !in_seq. lia. }
  destruct (all_rows imgs dh dw Hh Hw o o_unit (proj_of pr s2d) (pixfrac pr * pixfrac pr) pr s2d Pm larea wfi
     (fun _ _ => eq_refl) eq_refl (fun iy ix A B => Reg _ (Ipx iy ix A B)) (fun L iy ix A B => La L _ (Ipx iy ix A B))
     (nr imgs) 0%nat (- (1#2)) (Img dh dw (repeat (Some 0) (dh * dw)), Img dh dw (repeat 0 (dh * dw)))) as (pl & s & E & G & W & Sp & Co).
  - reflexivity.
  - reflexivity.
  - apply inv_start.
    + unfold good, wf. cbn [fst snd nr nc pix]. rewrite !repeat_length. auto 6.
    + intros x y O. cbn [fst snd]. split; apply filled_px; exact O.
  - exists pl, s, W. split; [exact E|]. split; [apply good_divide, G|]. split; [exact Sp|].
    intros x y O. destruct (Co x y O) as (r & k & R & K & C). destruct (divide_px dh dw s x y r k G R K) as (_ & R' & K').
    exists r, (fdiv r (Some k)), k. split; [exact R'|]. split; [exact K'|]. split; [exact C|]. apply fdiv_ratio.
Qed.

Lemma regrid_plain : linearize pr = false -> plane_map s2d_wcs ->
  (forall p, In p (pixels (nr imgs) (nc imgs)) -> strictly_convex (inject_Z o) (proj_of pr s2d_wcs p) /\ Forall moderate (proj_of pr s2d_wcs p)) ->
  exists s W, regrid_drizzle pr s2d_wcs larea (nr imgs, nc imgs) imgs dh dw = Ok s /\ outcome_is o pr s2d_wcs imgs dh dw s W.
Proof.
  intros Li Pm Reg. unfold regrid_drizzle. cbn [fst snd]. rewrite !Nat.eqb_refl. cbn [andb check obind].
  destruct (filled (Some 0) dh dw) as [res| | | |] eqn:Er; try (rewrite filled_ok in Er by exact Hfit; discriminate). cbn [obind].
  destruct (filled 0 dh dw) as [wei| | | |] eqn:Ew; try (rewrite filled_ok in Ew by exact Hfit; discriminate). cbn [obind].
  destruct (loops_ok s2d_wcs res wei Pm Er Ew Reg) as (pl & s & W & E & H); [rewrite Li; discriminate|].
  exists (apply_weights s), W. split; [|exact H]. rewrite Li. cbn [andb]. rewrite E. reflexivity.
Qed.

Definition lin : s2d_map :=
  let csx := inject_Z (Z.of_nat (nc imgs) / 2) in
  let csy := inject_Z (Z.of_nat (nr imgs) / 2) in
  let c := s2d_wcs csx csy in
  let minus_c p := (fst p - fst c, snd p - snd c) in
  linear_map csx csy c (minus_c (s2d_wcs (csx + 1) csy)) (minus_c (s2d_wcs csx (csy + 1))).
Lemma lin_map : plane_map lin.
Proof.
  intros x x' y y' Ex Ey. unfold lin, linear_map, peq. cbn [fst snd]. rewrite Ex, Ey. split; reflexivity.
Qed.
Lemma qn_half n : qn (n / 2) = inject_Z (Z.of_nat n / 2).
Proof. unfold qn. rewrite Nat2Z.inj_div. reflexivity. Qed.
Lemma regrid_linear : linearize pr = true ->
  (let csx := inject_Z (Z.of_nat (nc imgs) / 2) in let csy := inject_Z (Z.of_nat (nr imgs) / 2) in
   let c := s2d_wcs csx csy in
   is_translation c (fst (s2d_wcs (csx + 1) csy) - fst c, snd (s2d_wcs (csx + 1) csy) - snd c)
     (fst (s2d_wcs csx (csy + 1)) - fst c, snd (s2d_wcs csx (csy + 1)) - snd c) = false) ->
  (forall p, In p (pixels (nr imgs) (nc imgs)) -> strictly_convex (inject_Z o) (proj_of pr lin p) /\ Forall moderate (proj_of pr lin p)) ->
  (forall p, In p (pixels (nr imgs) (nc imgs)) -> larea == quad_area (inject_Z o) (proj_of pr lin p)) ->
  exists s W, regrid_drizzle pr s2d_wcs larea (nr imgs, nc imgs) imgs dh dw = Ok s /\ outcome_is o pr lin imgs dh dw s W.
Proof.
  intros Li T Reg La. unfold regrid_drizzle. cbn [fst snd]. rewrite !Nat.eqb_refl. cbn [andb check obind].
  destruct (filled (Some 0) dh dw) as [res| | | |] eqn:Er; try (rewrite filled_ok in Er by exact Hfit; discriminate). cbn [obind].
  destruct (filled 0 dh dw) as [wei| | | |] eqn:Ew; try (rewrite filled_ok in Ew by exact Hfit; discriminate). cbn [obind].
  destruct (loops_ok lin res wei lin_map Er Ew Reg) as (pl & s & W & E & H); [intros _; exact La|].
  exists (apply_weights s), W. split; [|exact H]. rewrite Li. cbn [andb]. rewrite !qn_half. unfold lin in E. cbv zeta beta in T, E |- *. rewrite T.
  cbn [andb]. rewrite E. reflexivity.
Qed.
End Regrid.

(* --- consequences for the sums --- *)
Lemma area_nonneg S a b A : area S a b A -> 0 <= A.
Proof.
  intros H. assert (L := strips_le _ _ _ _ (proj1 (area_strips S a b A) H)).
  eapply area_mono; [|apply (area_empty (fun _ _ => False) a b L); intros ? ? []|exact H]. intros x y [].
Qed.
Lemma weighs_nonneg o ps x y w : weighs o ps x y w -> 0 <= w.
Proof. intros (A & B & HA & HB & L1 & L2). pose proof (area_nonneg _ _ _ _ HB). lra. Qed.
Lemma spread_nonneg o ps h w W : 0 < quad_area o ps -> spread o ps h w W -> forall x y, on_image h w x y -> 0 <= W (y, x).
Proof.
  intros P [H|(_ & x0 & y0 & O & E & H)] x y Oxy; [eapply weighs_nonneg, H, Oxy|].
  destruct (prod_eq_dec' (y, x) (y0, x0)) as [K|K]; [rewrite K, E; lra|]. destruct (H x y Oxy K) as [Z _]. rewrite Z. lra.
Qed.
Lemma strict_quad_pos o ps : strictly_convex (inject_Z o) ps -> 0 < quad_area (inject_Z o) ps.
Proof.
  intros S. destruct ps as [|a [|b [|c [|d [|e ps]]]]]; cbn [strictly_convex] in S; try contradiction. apply (quad_pos o a b c d S).
Qed.
Lemma choose {A} (eqd : forall x y : A, {x = y} + {x <> y}) (P : A -> Q -> Prop) (l : list A) :
  (forall x, In x l -> exists q, P x q) -> exists f, forall x, In x l -> P x (f x).
Proof.
  induction l as [|a l IH]; intros H; [exists (fun _ => 0); intros x []|].
  destruct IH as (f & Hf); [intros x I; apply H; right; exact I|]. destruct (H a (or_introl eq_refl)) as (q & Hq).
  exists (fun x => if eqd x a then q else f x). intros x I. destruct (eqd x a) as [->|N]; [exact Hq|].
  destruct I as [<-|I]; [congruence|apply Hf, I].
Qed.
(* the pixels of the destination *)
Definition dests (h w : nat) : list (Z * Z) := list_prod (zrange 0 (Z.of_nat h - 1)) (zrange 0 (Z.of_nat w - 1)).
Lemma dests_in h w y x : In (y, x) (dests h w) <-> on_image h w x y.
Proof. unfold dests, on_image. rewrite in_prod_iff, !zrange_in. lia. Qed.
Lemma grid_total o ps h w W : (o = 1 \/ o = -1)%Z -> strictly_convex (inject_Z o) ps -> in_grid h w ps -> spread (inject_Z o) ps h w W ->
  qsum (map W (dests h w)) <= quad_area (inject_Z o) ps /\
  exists T, area (deeper tol (inject_Z o) ps) (- (1#2)) (inject_Z (Z.of_nat h) - (1#2)) T /\ T <= qsum (map W (dests h w)).
Proof.
  intros Ho Sc Ig Sp. destruct Sp as [Sp|(N & _)]; [|contradiction].
  destruct ps as [|a [|b [|c [|d [|e ps]]]]]; cbn [strictly_convex] in Sc; try contradiction.
  change (strictly_convex (inject_Z o) [a; b; c; d]) in Sc. set (P := [a; b; c; d]) in *.
  assert (NP : P <> []) by discriminate.
  assert (Hh : (1 <= Z.of_nat h)%Z /\ (1 <= Z.of_nat w)%Z).
  { unfold in_grid, P in Ig. inversion Ig as [|? ? (K1 & K2 & K3 & K4) _]; subst.
    assert (L1 : inject_Z 0 < inject_Z (Z.of_nat w)) by (change (inject_Z 0) with 0; lra).
    assert (L2 : inject_Z 0 < inject_Z (Z.of_nat h)) by (change (inject_Z 0) with 0; lra). rewrite <- Zlt_Qlt in L1, L2. lia. }
  assert (Ez : forall n : nat, inject_Z (Z.of_nat n - 1) + (1#2) == inject_Z (Z.of_nat n) - (1#2)).
  { intros n. unfold Z.sub. rewrite inject_Z_plus. change (inject_Z (- (1))) with (-(1)). ring. }
  assert (Total : forall t (A : Z * Z -> Q), 0 <= t ->
     (forall p, In p (dests h w) -> area (both (in_pixel (snd p) (fst p)) (deeper t (inject_Z o) P)) (inject_Z (fst p) - (1#2)) (inject_Z (fst p) + (1#2)) (A p)) ->
     area (deeper t (inject_Z o) P) (- (1#2)) (inject_Z (Z.of_nat h) - (1#2)) (qsum (map A (dests h w)))).
  { intros t A Ht HA.
    assert (K := grid_area o Ho 0 0 (Z.of_nat w - 1) (Z.of_nat h - 1) ltac:(lia) ltac:(lia) t P A Ht NP).
    eapply area_eq; [reflexivity| |reflexivity|eapply area_ext; [|apply K]].
    - apply Ez.
    - intros x y. unfold both. split; [intros [_ D]; exact D|]. intros D. split; [|exact D].
      assert (B := Ez w). assert (B' := Ez h). unfold in_grid in Ig.
      destruct (inside_bounds o a b c d t x y (-(1#2)) (inject_Z (Z.of_nat w) - (1#2)) Ho Ht D) as (I1 & I2 & _ & _).
      destruct (inside_bounds o a b c d t x y (-(1#2)) (inject_Z (Z.of_nat h) - (1#2)) Ho Ht D) as (_ & _ & I3 & I4).
      assert (J1 : -(1#2) < x) by (apply I1; eapply Forall_impl; [|exact Ig]; cbv beta; intros z Hz; apply Hz).
      assert (J2 : x < inject_Z (Z.of_nat w) - (1#2)) by (apply I2; eapply Forall_impl; [|exact Ig]; cbv beta; intros z Hz; lra).
      assert (J3 : -(1#2) < y) by (apply I3; eapply Forall_impl; [|exact Ig]; cbv beta; intros z Hz; lra).
      assert (J4 : y < inject_Z (Z.of_nat h) - (1#2)) by (apply I4; eapply Forall_impl; [|exact Ig]; cbv beta; intros z Hz; lra).
      unfold box. change (inject_Z 0) with 0. repeat split; lra.
    - intros ix iy I. apply (HA (iy, ix) I). }
  assert (Sp' : forall p, In p (dests h w) -> weighs (inject_Z o) P (snd p) (fst p) (W p)).
  { intros [y x] I. apply Sp. apply dests_in, I. }
  split.
  - destruct (choose prod_eq_dec' (fun p A => area (both (in_pixel (snd p) (fst p)) (inside (inject_Z o) P)) (inject_Z (fst p) - (1#2)) (inject_Z (fst p) + (1#2)) A /\ W p <= A) (dests h w)) as (A & HA).
    { intros p I. destruct (Sp' p I) as (A & B & H1 & _ & _ & L). exists A. auto. }
    assert (T := Total 0 A (Qle_refl 0) (fun p I => proj1 (HA p I))).
    assert (S := strict_area o a b c d (-(1#2)) (inject_Z (Z.of_nat h) - (1#2)) Ho Sc).
    assert (Hhi : Forall (high (- (1 # 2)) (inject_Z (Z.of_nat h) - (1 # 2))) P).
    { unfold in_grid in Ig. eapply Forall_impl; [|exact Ig]. unfold high. cbv beta. intros z Hz. lra. }
    assert (Lh : -(1#2) <= inject_Z (Z.of_nat h) - (1#2)).
    { assert (L : inject_Z 0 <= inject_Z (Z.of_nat h)) by (rewrite <- Zle_Qle; lia). change (inject_Z 0) with 0 in L. lra. }
    assert (E := area_unique _ _ _ _ _ (S Lh Hhi) T).
    assert (Eq : polyon_area P == quad_area (inject_Z o) P) by apply (quad_polyon o Ho a b c d Sc).
    assert (Le : qsum (map W (dests h w)) <= qsum (map A (dests h w))) by (apply qsum_le; intros p I; apply (HA p I)).
    fold P in E. lra.
  - destruct (choose prod_eq_dec' (fun p B => area (both (in_pixel (snd p) (fst p)) (deeper tol (inject_Z o) P)) (inject_Z (fst p) - (1#2)) (inject_Z (fst p) + (1#2)) B /\ B <= W p) (dests h w)) as (B & HB).
    { intros p I. destruct (Sp' p I) as (A & B & _ & H2 & L & _). exists B. auto. }
    exists (qsum (map B (dests h w))). split; [apply (Total tol B tol_nn (fun p I => proj1 (HB p I)))|].
    apply qsum_le. intros p I. apply (HB p I).
Qed.

(* bounds of a weighted mean *)
Lemma mean_bounds cs r k v m M : collects cs (Some r) k -> is_ratio (Some r) k (Some v) ->
  (forall b e w, In (b, e, w) cs -> 0 <= w) ->
  (forall b e w, In (Some b, e, w) cs -> 0 < w -> m <= b * e /\ b * e <= M) -> m <= v /\ v <= M.
Proof.
  intros (K & N & R) [Z V] Pos B.
  assert (S : m * qsum (map weight cs) <= qsum (map share cs) /\ qsum (map share cs) <= M * qsum (map weight cs)).
  { clear K R. induction cs as [|[[b e] w] cs IH]; [cbn; lra|]. cbn [map].
    assert (IH' := IH (fun e w I => N e w (or_intror I)) (fun b e w I => Pos b e w (or_intror I)) (fun b e w I => B b e w (or_intror I))).
    change (qsum (weight (b, e, w) :: map weight cs)) with (w + qsum (map weight cs)).
    change (qsum (share (b, e, w) :: map share cs)) with (share (b, e, w) + qsum (map share cs)).
    assert (P0 := Pos b e w (or_introl eq_refl)). destruct b as [b|]; cbn [share].
    - destruct (Qlt_le_dec 0 w) as [Lw|Lw].
      + destruct (B b e w (or_introl eq_refl) Lw) as [B1 B2].
        pose proof (prod_nn (b * e - m) w ltac:(lra) ltac:(lra)). pose proof (prod_nn (M - b * e) w ltac:(lra) ltac:(lra)). lra.
      + assert (Z0 : w == 0) by lra. rewrite Z0. lra.
    - assert (Z0 : w == 0) by (apply (N e w); left; reflexivity). rewrite Z0. lra. }
  assert (Kp : 0 <= k).
  { rewrite K. clear - Pos. induction cs as [|[[b e] w] cs IH]; [cbn; lra|]. cbn [map].
    change (qsum (weight (b, e, w) :: map weight cs)) with (w + qsum (map weight cs)).
    assert (P0 := Pos b e w (or_introl eq_refl)). assert (IH' := IH (fun b e w I => Pos b e w (or_intror I))). lra. }
  rewrite <- K, <- R in S. assert (Kp' : 0 < k) by lra.
  split; apply (proj1 (Qmult_le_r _ _ k Kp')); lra.
Qed.
(* exchange of sums *)
Lemma qsum_scale c l : qsum (map (fun x => c * x) l) == c * qsum l.
Proof. unfold qsum. induction l as [|x l IH]; cbn [map fold_right]; [ring|]. rewrite IH. ring. Qed.
Lemma qsum_plus {A} (f g : A -> Q) l : qsum (map (fun x => f x + g x) l) == qsum (map f l) + qsum (map g l).
Proof. unfold qsum. induction l as [|x l IH]; cbn [map fold_right]; [ring|]. rewrite IH. ring. Qed.
Lemma qsum_swap {A B} (f : A -> B -> Q) l l' :
  qsum (map (fun x => qsum (map (fun y => f x y) l')) l) == qsum (map (fun y => qsum (map (fun x => f x y) l)) l').
Proof.
  induction l as [|x l IH].
  - cbn [map]. unfold qsum at 1. cbn [fold_right]. induction l' as [|y l' IH]; [reflexivity|]. cbn [map]. unfold qsum at 1. cbn [fold_right].
    unfold qsum in IH at 1. rewrite <- IH. reflexivity.
  - cbn [map]. change (qsum (?a :: ?t)) with (a + qsum t). rewrite IH, <- qsum_plus. reflexivity.
Qed.
