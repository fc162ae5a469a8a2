From Coq Require Import ZifyBool QArith Lqa Qminmax.
From Verif Require Import Base VecProofs VecProofs2 OrderModel OrderSpec OrderProofs OrderProofs2 OrderProofs3
  ReduceSpec ReduceProofs ReduceProofs2 ReduceProofs3 InterpModel InterpSpec InterpProofs IntegModel IntegSpec IntegProofs.
Local Open Scope nat_scope.

(* ---- integrate_hinted ---- *)

Lemma bound_checks_ok x y x0 x1 front back : length x = length y ->
  nth_error x 0 = Some front -> nth_error x (length x - 1) = Some back -> (front <= x0)%Q -> (x1 <= back)%Q ->
  bound_checks x y x0 x1 = Ok tt.
Proof.
  intros L Nf Nb H1 H3. assert (LX : 0 < length x) by (apply nth_error_Some; congruence).
  unfold bound_checks. rewrite (proj2 (Nat.eqb_eq _ _) L). cbn [check obind].
  destruct (Nat.eqb_spec (length y) 0); [lia|]. cbn [negb check obind].
  rewrite (proj2 (oget_Ok _ _ _ _) Nf). cbn [obind]. rewrite (proj2 (Qle_bool_iff _ _) H1). cbn [check obind].
  rewrite (proj2 (oget_Ok _ _ _ _) Nb). cbn [obind]. rewrite (proj2 (Qle_bool_iff _ _) H3). reflexivity.
Qed.

Lemma hinted_ok x y h x0 x1 front back : length x = length y -> nondecreasing x ->
  nth_error x 0 = Some front -> nth_error x (length x - 1) = Some back ->
  (front <= x0)%Q -> (x0 <= x1)%Q -> (x1 <= back)%Q -> (x0 < back)%Q -> hint_ok x h x0 ->
  exists r j, integrate_hinted x y h x0 x1 = Ok (Some r, j) /\ (r == area x y x0 x1)%Q /\ hint_ok x (Some j) x1.
Proof.
  intros L M Nf Nb H1 H2 H3 H4 Hh. unfold integrate_hinted.
  rewrite (bound_checks_ok x y x0 x1 front back L Nf Nb H1 H3). cbn [obind].
  destruct h as [h|].
  - destruct Hh as (a & Na & Ha). assert (h < length x) by (apply nth_error_Some; congruence).
    destruct (advance_ok x x0 (length x - h) (S (length x)) h a eq_refl ltac:(lia) Na Ha) as (i0 & c0 & E0 & G0 & N0 & C0 & D0).
    rewrite E0. cbn [obind]. assert (i0 < length x) by (apply nth_error_Some; congruence).
    destruct (advance_ok x x1 (length x - i0) (S (length x)) i0 c0 eq_refl ltac:(lia) N0 ltac:(lra)) as (i1 & c1 & E1 & G1 & N1 & C1 & D1).
    rewrite E1. cbn [obind].
    assert (I0 : i0 <> length x - 1). { intros ->. rewrite N0 in Nb. injection Nb as <-. lra. }
    destruct (Nat.eqb_spec i0 (length x - 1)); [contradiction|].
    destruct (nth_error x (i0 + 1)) as [b|] eqn:Nb1; [|apply nth_error_None in Nb1; lia]. specialize (D0 b eq_refl).
    destruct (between_ok x y L M (i0 + 1) i1 x0 x1 c0 b c1) as (r & E & V); auto; try lia.
    { replace (i0 + 1 - 1) with i0 by lia. exact N0. }
    { intros d Nd. rewrite Nb in Nd. injection Nd as <-. exact H3. }
    rewrite E. cbn [obind]. exists r, i1. split; [reflexivity|]. split; [exact V|]. exists c1. auto.
  - destruct (upper_bound_ok qlt qlt_order x x0 (nondecreasing_ascending x M)) as (o0 & E0 & S0). rewrite E0. cbn [obind].
    destruct o0 as [i0|]; [|exfalso; specialize (S0 _ _ Nb); apply qlt_false in S0; lra].
    destruct S0 as [(b & Nb0 & Hb) A0]. apply qlt_true in Hb.
    assert (P0 : i0 <> 0). { intros ->. rewrite Nf in Nb0. injection Nb0 as <-. lra. }
    destruct (Nat.eqb_spec i0 0); [contradiction|]. assert (i0 < length x) by (apply nth_error_Some; congruence).
    destruct (nth_error x (i0 - 1)) as [a|] eqn:Na; [|apply nth_error_None in Na; lia].
    assert (Ha : (a <= x0)%Q) by (apply qlt_false; apply (A0 (i0 - 1)); [lia|exact Na]).
    destruct (advance_ok x x1 (length x - (i0 - 1)) (S (length x)) (i0 - 1) a eq_refl ltac:(lia) Na ltac:(lra)) as (i1 & c1 & E1 & G1 & N1 & C1 & D1).
    rewrite E1. cbn [obind].
    destruct (between_ok x y L M i0 i1 x0 x1 a b c1) as (r & E & V); auto; try lia.
    { intros d Nd. rewrite Nb in Nd. injection Nd as <-. exact H3. }
    rewrite E. cbn [obind]. exists r, i1. split; [reflexivity|]. split; [exact V|]. exists c1. auto.
Qed.

(* at the last node *)
Lemma hinted_end x y h x0 back : length x = length y -> increasing x ->
  nth_error x (length x - 1) = Some back -> (x0 == back)%Q -> 
  (h = None -> integrate_hinted x y h x0 x0 = UB) /\
  (h <> None -> hint_ok x h x0 -> exists r, integrate_hinted x y h x0 x0 = Ok (Some r, length x - 1) /\ (r == 0)%Q).
Proof.
  intros L M Nb H. assert (LX : 0 < length x) by (destruct x; [discriminate|simpl; lia]).
  destruct (nth_error x 0) as [front|] eqn:Nf; [|apply nth_error_None in Nf; lia].
  pose proof (nondecreasing_mono x 0 (length x - 1) front back (increasing_weak _ M) ltac:(lia) Nf Nb).
  unfold integrate_hinted. rewrite (bound_checks_ok x y x0 x0 front back L Nf Nb) by lra. cbn [obind].
  split; intros Hh.
  - subst h. destruct (upper_bound_ok qlt qlt_order x x0 (nondecreasing_ascending x (increasing_weak _ M))) as (o0 & E0 & S0). rewrite E0. cbn [obind].
    destruct o0 as [i0|]; [|reflexivity].
    destruct S0 as [(b & Nb0 & Hb) _]. apply qlt_true in Hb. assert (i0 < length x) by (apply nth_error_Some; congruence).
    pose proof (nondecreasing_mono x i0 (length x - 1) b back (increasing_weak _ M) ltac:(lia) Nb0 Nb). lra.
  - destruct h as [h|]; [|congruence]. intros (a & Na & Ha). assert (h < length x) by (apply nth_error_Some; congruence).
    destruct (advance_ok x x0 (length x - h) (S (length x)) h a eq_refl ltac:(lia) Na Ha) as (i0 & c0 & E0 & G0 & N0 & C0 & D0).
    rewrite E0. cbn [obind]. assert (B0 : i0 < length x) by (apply nth_error_Some; congruence).
    assert (I0 : i0 = length x - 1).
    { destruct (Nat.eq_dec i0 (length x - 1)) as [K|K]; [exact K|].
      destruct (nth_error x (i0 + 1)) as [b|] eqn:Nb1; [|apply nth_error_None in Nb1; lia]. specialize (D0 b eq_refl).
      pose proof (nondecreasing_mono x (i0 + 1) (length x - 1) b back (increasing_weak _ M) ltac:(lia) Nb1 Nb). lra. }
    assert (E1 : advance (S (length x)) x x0 i0 = Ok i0).
    { cbn [advance]. destruct (Nat.ltb_spec i0 (length x - 1)); [lia|reflexivity]. }
    rewrite E1. cbn [obind]. destruct (Nat.eqb_spec i0 (length x - 1)); [|lia].
    unfold between. destruct (Nat.ltb_spec i0 i0); [lia|]. rewrite Nat.sub_diag. cbn [seq ofold obind].
    destruct (Nat.ltb_spec i0 (length x - 1)) as [K|K]; [lia|].
    destruct (Nat.ltb_spec 0 i0) as [K2|K2].
    + destruct (four_nodes x y (i0 - 1) L ltac:(lia)) as (xa & xb & ya & yb & N1 & N2 & N3 & N4 & F1 & F2 & F3 & F4).
      replace (i0 - 1 + 1) with i0 in * by lia.
      rewrite F3. cbn [obind]. rewrite F4. cbn [obind]. rewrite F1. cbn [obind]. rewrite F2. cbn [obind].
      assert (Hab : (xa < xb)%Q) by (apply (M (i0 - 1)); [exact N1|replace (i0 - 1 + 1) with i0 by lia; exact N2]).
      destruct (interp_line xa ya xb yb x0 Hab) as (u0 & V0 & W0). rewrite V0. cbn [obind oadd].
      eexists. split; [f_equal; f_equal; lia|]. assert (xb == x0)%Q as Z.
      { rewrite <- I0 in Nb. rewrite N2 in Nb. injection Nb as <-. symmetry. exact H. }
      rewrite Z. ring.
    + cbn [obind oadd]. eexists. split; [f_equal; f_equal; lia|]. ring.
Qed.

(* ---- laws of the area ---- *)
Lemma sum_with_app A (f : A -> Q) a b : (sum_with f (a ++ b) == sum_with f a + sum_with f b)%Q.
Proof.
  induction a as [|x a IH]; [unfold segments, sum_with; cbn [app combine map tl fold_right]; ring|]. cbn [app]. unfold sum_with in *. cbn [fold_right]. rewrite IH. ring.
Qed.
Lemma sum_with_ext A (f g : A -> Q) l : (forall a, In a l -> (f a == g a)%Q) -> (sum_with f l == sum_with g l)%Q.
Proof.
  induction l as [|x l IH]; intros H; [reflexivity|]. unfold sum_with in *. cbn [fold_right].
  rewrite (H x (or_introl eq_refl)), IH; [reflexivity|]. intros a Ha. apply H. right; exact Ha.
Qed.
Lemma sum_with_plus A (f g : A -> Q) l : (sum_with (fun a => f a + g a) l == sum_with f l + sum_with g l)%Q.
Proof. induction l as [|x l IH]; [unfold segments, sum_with; cbn [app combine map tl fold_right]; ring|]. unfold sum_with in *. cbn [fold_right]. rewrite IH. ring. Qed.

Lemma in_segments x y s : In s (segments (combine x y)) -> 
  exists k xa xb ya yb, s = ((xa, ya), (xb, yb)) /\ nth_error x k = Some xa /\ nth_error x (k + 1) = Some xb /\
    nth_error y k = Some ya /\ nth_error y (k + 1) = Some yb.
Proof.
  intros H. apply In_nth_error in H as (k & H). unfold segments in H. rewrite nth_combine, nth_tl, !nth_combine in H.
  destruct (nth_error x k) as [xa|] eqn:E1; [|discriminate]. destruct (nth_error y k) as [ya|] eqn:E2; [|discriminate].
  destruct (nth_error x (k + 1)) as [xb|] eqn:E3; [|discriminate]. destruct (nth_error y (k + 1)) as [yb|] eqn:E4; [|discriminate].
  injection H as <-. exists k, xa, xb, ya, yb. auto 10.
Qed.

Lemma clip_add a b c xa ya xb yb : (a <= b)%Q -> (b <= c)%Q -> (xa <= xb)%Q ->
  (clip a b ((xa, ya), (xb, yb)) + clip b c ((xa, ya), (xb, yb)) == clip a c ((xa, ya), (xb, yb)))%Q.
Proof.
  intros H1 H2 Hx. destruct (Qlt_le_dec xa xb) as [Hs|Hs].
  2:{ assert (Z : forall p q, clip p q ((xa, ya), (xb, yb)) = 0%Q).
      { intros p q. unfold clip. destruct (Qlt_le_dec (Qmax p xa) (Qmin q xb)) as [K|K]; [|reflexivity]. exfalso.
        pose proof (Q.le_max_r p xa). pose proof (Q.le_min_r q xb). lra. }
      rewrite !Z. ring. }
  destruct (Qlt_le_dec xa b) as [B1|B1].
  2:{ rewrite (clip_zero a b) by (right; exact B1). rewrite Qplus_0_l.
      destruct (Qlt_le_dec xa c) as [B2|B2]; [|rewrite !clip_zero by (right; exact B2); reflexivity].
      rewrite (clip_eq b c xa ya xb yb xa (Qmin c xb)); [|symmetry; apply Q.max_r; exact B1|reflexivity|apply Q.min_glb; lra].
      rewrite (clip_eq a c xa ya xb yb xa (Qmin c xb)); [|symmetry; apply Q.max_r; lra|reflexivity|apply Q.min_glb; lra]. reflexivity. }
  destruct (Qlt_le_dec b xb) as [B2|B2].
  2:{ rewrite (clip_zero b c) by (left; exact B2). rewrite Qplus_0_r.
      destruct (Qlt_le_dec a xb) as [B3|B3]; [|rewrite !clip_zero by (left; exact B3); reflexivity].
      rewrite (clip_eq a b xa ya xb yb (Qmax a xa) xb); [|reflexivity|symmetry; apply Q.min_r; exact B2|apply Q.max_lub; lra].
      rewrite (clip_eq a c xa ya xb yb (Qmax a xa) xb); [|reflexivity|symmetry; apply Q.min_r; lra|apply Q.max_lub; lra]. reflexivity. }
  rewrite (clip_eq a b xa ya xb yb (Qmax a xa) b); [|reflexivity|symmetry; apply Q.min_l; lra|apply Q.max_lub; lra].
  rewrite (clip_eq b c xa ya xb yb b (Qmin c xb)); [|symmetry; apply Q.max_l; lra|reflexivity|apply Q.min_glb; lra].
  rewrite (clip_eq a c xa ya xb yb (Qmax a xa) (Qmin c xb)); [|reflexivity|reflexivity|].
  - unfold line. generalize ((yb - ya) / (xb - xa))%Q as s. generalize (Qmax a xa) as l. generalize (Qmin c xb) as r.
    intros r l s. field.
  - apply Q.max_lub; apply Q.min_glb; lra.
Qed.

Lemma area_add x y a b c : nondecreasing x -> (a <= b)%Q -> (b <= c)%Q ->
  (area x y a b + area x y b c == area x y a c)%Q.
Proof.
  intros M H1 H2. unfold area. rewrite <- sum_with_plus. apply sum_with_ext. intros s Hs.
  apply in_segments in Hs as (k & xa & xb & ya & yb & -> & N1 & N2 & _). apply clip_add; auto. apply (M k); assumption.
Qed.

Lemma area_total x y front back : nondecreasing x -> nth_error x 0 = Some front -> nth_error x (length x - 1) = Some back ->
  (area x y front back == trap_sum x y)%Q.
Proof.
  intros M Nf Nb. unfold area, trap_sum. apply sum_with_ext. intros s Hs.
  apply in_segments in Hs as (k & xa & xb & ya & yb & -> & N1 & N2 & N3 & N4).
  assert (k + 1 < length x) by (apply nth_error_Some; congruence).
  pose proof (nondecreasing_mono x 0 k front xa M ltac:(lia) Nf N1).
  pose proof (nondecreasing_mono x (k + 1) (length x - 1) xb back M ltac:(lia) N2 Nb).
  pose proof (M k xa xb N1 N2).
  rewrite (clip_eq front back xa ya xb yb xa xb); [|symmetry; apply Q.max_r; lra|symmetry; apply Q.min_r; lra|assumption].
  unfold trap. destruct (Qlt_le_dec xa xb) as [W|W].
  - rewrite line_a, line_b by exact W. reflexivity.
  - assert (xb - xa == 0)%Q as Z by lra. rewrite Z. ring.
Qed.

(* telescoping over the nodes *)
Lemma segments_app a c b : segments (a ++ c :: b) = segments (a ++ [c]) ++ segments (c :: b).
Proof.
  unfold segments. induction a as [|p a IH]; [reflexivity|]. cbn [app tl]. destruct a as [|q a].
  - reflexivity.
  - cbn [app] in *. cbn [tl] in *. cbn [combine app]. f_equal. exact IH.
Qed.
Lemma combine_app_eq A B (a1 a2 : list A) (b1 b2 : list B) : length a1 = length b1 ->
  combine (a1 ++ a2) (b1 ++ b2) = combine a1 b1 ++ combine a2 b2.
Proof.
  revert b1; induction a1 as [|x a1 IH]; intros [|y b1] H; try discriminate; [reflexivity|].
  cbn [app combine]. f_equal. apply IH. simpl in H. lia.
Qed.

Lemma telescope (G : Q -> Q) (f : (Q * Q) * (Q * Q) -> Q) : forall y x, length x = length y ->
  (forall k xa xb ya yb, nth_error x k = Some xa -> nth_error x (k + 1) = Some xb ->
     nth_error y k = Some ya -> nth_error y (k + 1) = Some yb -> (f ((xa, ya), (xb, yb)) == G xb - G xa)%Q) ->
  forall front back, nth_error x 0 = Some front -> nth_error x (length x - 1) = Some back ->
  (sum_with f (segments (combine x y)) == G back - G front)%Q.
Proof.
  induction y as [|y0 y IH]; intros [|x0 x] L H front back Nf Nb; try discriminate.
  destruct x as [|x1 x], y as [|y1 y]; try discriminate.
  - cbn in Nf, Nb. injection Nf as <-. injection Nb as <-. unfold segments, sum_with. cbn [combine tl fold_right]. ring.
  - cbn [combine segments tl]. unfold segments. cbn [tl combine]. cbn [sum_with fold_right].
    change (fold_right (fun a s => f a + s) 0 (combine ((x1, y1) :: combine x y) (combine x y)))%Q
      with (sum_with f (segments (combine (x1 :: x) (y1 :: y)))).
    rewrite (IH (x1 :: x) ltac:(simpl in *; lia)) with (front := x1) (back := back).
    + rewrite (H 0 x0 x1 y0 y1) by reflexivity. cbn in Nf. injection Nf as <-. ring.
    + intros k xa xb ya yb N1 N2 N3 N4. apply (H (S k)); assumption.
    + reflexivity.
    + cbn [length] in Nb |- *. replace (S (S (length x)) - 1) with (S (S (length x) - 1)) in Nb by lia. exact Nb.
Qed.

Lemma trap_linear x y a b front back : length x = length y ->
  (forall i xi yi, nth_error x i = Some xi -> nth_error y i = Some yi -> (yi == a * xi + b)%Q) ->
  nth_error x 0 = Some front -> nth_error x (length x - 1) = Some back ->
  (trap_sum x y == (a * back * back / 2 + b * back) - (a * front * front / 2 + b * front))%Q.
Proof.
  intros L H Nf Nb. unfold trap_sum. apply (telescope (fun t => a * t * t / 2 + b * t)%Q trap y x L); auto.
  intros k xa xb ya yb N1 N2 N3 N4. unfold trap. rewrite (H _ _ _ N1 N3), (H _ _ _ N2 N4). field.
Qed.

Lemma area_linear x y a b x0 x1 front back : length x = length y -> nondecreasing x ->
  (forall i xi yi, nth_error x i = Some xi -> nth_error y i = Some yi -> (yi == a * xi + b)%Q) ->
  nth_error x 0 = Some front -> nth_error x (length x - 1) = Some back ->
  (front <= x0)%Q -> (x0 <= x1)%Q -> (x1 <= back)%Q ->
  (area x y x0 x1 == (a * x1 * x1 / 2 + b * x1) - (a * x0 * x0 / 2 + b * x0))%Q.
Proof.
  intros L M H Nf Nb H1 H2 H3. unfold area.
  set (cl := fun t => Qmax x0 (Qmin x1 t)).
  rewrite (telescope (fun t => a * cl t * cl t / 2 + b * cl t)%Q (clip x0 x1) y x L) with (front := front) (back := back); auto.
  - assert (cl back == x1)%Q as E1. { unfold cl. rewrite (Q.min_l x1 back H3). apply Q.max_r. exact H2. }
    assert (cl front == x0)%Q as E2. { unfold cl. rewrite Q.min_r by lra. apply Q.max_l. exact H1. }
    rewrite E1, E2. reflexivity.
  - intros k xa xb ya yb N1 N2 N3 N4. pose proof (M k xa xb N1 N2) as Hab.
    pose proof (H _ _ _ N1 N3) as Va. pose proof (H _ _ _ N2 N4) as Vb.
    destruct (Qlt_le_dec x0 xb) as [B1|B1].
    2:{ rewrite clip_zero by (left; exact B1). assert (cl xb == x0)%Q as E1 by (unfold cl; rewrite (Q.min_r x1 xb) by lra; apply Q.max_l; exact B1).
        assert (cl xa == x0)%Q as E2 by (unfold cl; rewrite (Q.min_r x1 xa) by lra; apply Q.max_l; lra). rewrite E1, E2. ring. }
    destruct (Qlt_le_dec xa x1) as [B2|B2].
    2:{ rewrite clip_zero by (right; exact B2). assert (cl xb == x1)%Q as E1 by (unfold cl; rewrite (Q.min_l x1 xb) by lra; apply Q.max_r; lra).
        assert (cl xa == x1)%Q as E2 by (unfold cl; rewrite (Q.min_l x1 xa) by lra; apply Q.max_r; lra). rewrite E1, E2. ring. }
    destruct (Qlt_le_dec xa xb) as [W|W].
    2:{ assert (Z : (cl xb == cl xa)%Q). { unfold cl. assert (xa == xb)%Q as E by lra. rewrite E. reflexivity. }
        rewrite Z. unfold clip. destruct (Qlt_le_dec (Qmax x0 xa) (Qmin x1 xb)) as [K|K]; [exfalso|ring].
        pose proof (Q.le_max_r x0 xa). pose proof (Q.le_min_r x1 xb). lra. }
    assert (E1 : (cl xb == Qmin x1 xb)%Q). { unfold cl. apply Q.max_r. apply Q.min_glb; lra. }
    assert (E2 : (cl xa == Qmax x0 xa)%Q). { unfold cl. rewrite (Q.min_r x1 xa) by lra. reflexivity. }
    rewrite (clip_eq x0 x1 xa ya xb yb (cl xa) (cl xb) E2 E1).
    + assert (LN : forall t, (line xa ya xb yb t == a * t + b)%Q).
      { intros t. unfold line. rewrite Va, Vb. field. lra. }
      rewrite !LN. field.
    + rewrite E1, E2. apply Q.max_lub; apply Q.min_glb; lra.
Qed.

Lemma trap_split x1 c x2 y1 d y2 : length x1 = length y1 ->
  (trap_sum (x1 ++ c :: x2) (y1 ++ d :: y2) == trap_sum (x1 ++ [c]) (y1 ++ [d]) + trap_sum (c :: x2) (d :: y2))%Q.
Proof.
  intros L. unfold trap_sum. rewrite !combine_app_eq by exact L. cbn [combine].
  rewrite segments_app, sum_with_app. reflexivity.
Qed.

Lemma trap_combination a b : forall x y z, length x = length y -> length x = length z ->
  (trap_sum x (map (fun p => a * fst p + b * snd p) (combine y z)) == a * trap_sum x y + b * trap_sum x z)%Q.
Proof.
  unfold trap_sum. induction x as [|x0 x IH]; intros [|y0 y] [|z0 z] L1 L2; try discriminate; [unfold segments, sum_with; cbn [app combine map tl fold_right]; ring|].
  destruct x as [|x1 x], y as [|y1 y], z as [|z1 z]; try discriminate; [unfold segments, sum_with; cbn [app combine map tl fold_right]; ring|].
  specialize (IH (y1 :: y) (z1 :: z) ltac:(simpl in *; lia) ltac:(simpl in *; lia)).
  cbn [combine map segments tl sum_with fold_right] in *. unfold segments in *. cbn [combine tl fold_right sum_with] in *.
  unfold sum_with in *. cbn [fold_right fst snd] in *. rewrite IH. unfold trap. field.
Qed.
