(* Proofs about one pixel of the source: which pixels of the destination receive what. *)
From Coq Require Import QArith Qabs Qround Lqa Setoid Morphisms Qminmax Lia.
From Verif Require Import Base ImageModel ImageSpec ImageProofs ImageProofs3.
From Verif Require Import DrizModel DrizSpec DrizProofs DrizProofs2 DrizProofs3 DrizProofs4 DrizProofs5 DrizProofs6 DrizProofs7 DrizProofs8 DrizProofs9.
Local Open Scope Q_scope.

(* --- the bounds of the loops --- *)
Lemma minmax_fold l : forall lo hi, lo <= hi ->
  let m := fold_left (fun m x => if qlt x (fst m) then (x, snd m)
                                 else if negb (qlt x (snd m)) then (fst m, x) else m) l (lo, hi) in
  fst m <= lo /\ hi <= snd m /\ fst m <= snd m /\ Forall (fun x => fst m <= x /\ x <= snd m) l
  /\ (fst m = lo \/ In (fst m) l) /\ (snd m = hi \/ In (snd m) l).
Proof.
  induction l as [|x l IH]; intros lo hi L m.
  - cbn in m. subst m. cbn [fst snd]. repeat split; try lra; auto.
  - cbn [fold_left fst snd] in m. destruct (qlt x lo) eqn:E1; [|destruct (qlt x hi) eqn:E2]; cbn [negb] in m.
    + apply qlt_spec in E1. destruct (IH x hi ltac:(lra)) as (A & B & C & D & F & G). fold m in A, B, C, D, F, G.
      split; [lra|]. split; [exact B|]. split; [exact C|]. split; [constructor; [lra|exact D]|]. split.
      * right. destruct F as [->|F]; [left; reflexivity|right; exact F].
      * destruct G as [G|G]; [left; exact G|right; right; exact G].
    + apply qlt_false in E1. apply qlt_spec in E2. destruct (IH lo hi L) as (A & B & C & D & F & G). fold m in A, B, C, D, F, G.
      split; [exact A|]. split; [exact B|]. split; [exact C|]. split; [constructor; [lra|exact D]|].
      split; [destruct F as [F|F]|destruct G as [G|G]]; auto; right; right; assumption.
    + apply qlt_false in E1. apply qlt_false in E2. destruct (IH lo x ltac:(lra)) as (A & B & C & D & F & G). fold m in A, B, C, D, F, G.
      split; [exact A|]. split; [lra|]. split; [exact C|]. split; [constructor; [lra|exact D]|]. split.
      * destruct F as [F|F]; [left; exact F|right; right; exact F].
      * right. destruct G as [->|G]; [left; reflexivity|right; exact G].
Qed.
Lemma minmax_spec v : v <> [] -> exists lo hi, minmax v = Ok (lo, hi) /\
  Forall (fun x => lo <= x /\ x <= hi) v /\ In lo v /\ In hi v.
Proof.
  destruct v as [|x l]; intros N; [congruence|]. unfold minmax.
  assert (K := minmax_fold l x x (Qle_refl x)). cbv zeta in K.
  destruct (fold_left _ l (x, x)) as [lo hi]. cbn [fst snd] in K. destruct K as (A & B & C & D & F & G).
  exists lo, hi. split; [reflexivity|]. split; [constructor; [lra|exact D]|].
  split; [destruct F as [->|F]|destruct G as [->|G]]; cbn; auto.
Qed.
Lemma floor_z q z : inject_Z z <= q -> q < inject_Z (z + 1) -> Qfloor q = z.
Proof.
  intros A B. pose proof (Qfloor_le q). pose proof (Qlt_floor q).
  assert (C : inject_Z (Qfloor q) < inject_Z (z + 1)) by lra. assert (D : inject_Z z < inject_Z (Qfloor q + 1)) by lra.
  rewrite <- Zlt_Qlt in C, D. lia.
Qed.
Lemma floor_le q q' : q <= q' -> (Qfloor q <= Qfloor q')%Z.
Proof. apply Qfloor_resp_le. Qed.
Definition small (q : Q) : Prop := - inject_Z (2 ^ 62) <= q /\ q <= inject_Z (2 ^ 62).
Lemma small_floor q : small q -> signed64 (Qfloor (q + (1#2))) = Ok (Qfloor (q + (1#2))).
Proof.
  intros [A B]. unfold signed64.
  assert (L : (- 2 ^ 62 - 1 <= Qfloor (q + (1#2)))%Z).
  { rewrite <- (Qfloor_Z (- 2 ^ 62 - 1)). apply floor_le.
    assert (E : inject_Z (- 2 ^ 62 - 1) == - inject_Z (2 ^ 62) - 1) by reflexivity. rewrite E. lra. }
  assert (U : (Qfloor (q + (1#2)) <= 2 ^ 62 + 1)%Z).
  { rewrite <- (Qfloor_Z (2 ^ 62 + 1)). apply floor_le.
    assert (E : inject_Z (2 ^ 62 + 1) == inject_Z (2 ^ 62) + 1) by reflexivity. rewrite E. lra. }
  assert (T : two63 = (2 ^ 63)%Z) by reflexivity.
  destruct (Z.leb_spec (- two63) (Qfloor (q + (1#2)))), (Z.ltb_spec (Qfloor (q + (1#2))) two63); cbn [andb]; try reflexivity; lia.
Qed.
Lemma getbounds_spec v n : v <> [] -> Forall small v -> exists lo hi,
  getbounds v n = Ok (Z.max 0 (Qfloor (lo + (1#2))), Z.min n (Qfloor (hi + (1#2)))) /\
  Forall (fun x => lo <= x /\ x <= hi) v /\ In lo v /\ In hi v.
Proof.
  intros N S. destruct (minmax_spec v N) as (lo & hi & E & B & I1 & I2). exists lo, hi.
  split; [|auto]. rewrite Forall_forall in S. unfold getbounds. rewrite E. cbn [obind fst snd].
  rewrite (small_floor hi (S hi I2)). cbn [obind]. rewrite (small_floor lo (S lo I1)). cbn [obind].
  f_equal. f_equal.
  - destruct (Z.ltb_spec 0 (Qfloor (lo + (1#2)))); lia.
  - destruct (Z.ltb_spec n (Qfloor (hi + (1#2)))); lia.
Qed.

(* --- one pixel of an image is replaced --- *)
Definition same_size {A B} (v : img A) (v' : img B) : Prop := nr v = nr v' /\ nc v = nc v'.
Lemma pset_px {A} (v : img A) (y x : Z) a : wf v -> (0 <= y < Z.of_nat (nr v))%Z -> (0 <= x < Z.of_nat (nc v))%Z ->
  exists d, pset (nc v) (pix v) (Z.to_nat y) (Z.to_nat x) a = Ok d /\ wf (Img (nr v) (nc v) d) /\
    (forall y' x', px (Img (nr v) (nc v) d) y' x' = if prod_eq_dec' (y', x') (y, x) then Some a else px v y' x').
Proof.
  intros W Hy Hx. unfold pset, oset.
  assert (P : (Z.to_nat y * nc v + Z.to_nat x < length (pix v))%nat).
  { unfold wf in W. rewrite W. apply pos_lt; lia. }
  destruct (Nat.ltb_spec (Z.to_nat y * nc v + Z.to_nat x) (length (pix v))) as [_|K]; [|lia].
  eexists. split; [reflexivity|]. split.
  - unfold wf in *. cbn [nr nc pix]. rewrite upd_length. exact W.
  - intros y' x'. unfold px. cbn [nr nc pix].
    destruct (prod_eq_dec' (y', x') (y, x)) as [E|E].
    + injection E as -> ->.
      destruct (Z.leb_spec 0 y), (Z.ltb_spec y (Z.of_nat (nr v))), (Z.leb_spec 0 x), (Z.ltb_spec x (Z.of_nat (nc v))); cbn [andb]; try lia.
      apply nth_error_upd_same. exact P.
    + destruct (Z.leb_spec 0 y'), (Z.ltb_spec y' (Z.of_nat (nr v))), (Z.leb_spec 0 x'), (Z.ltb_spec x' (Z.of_nat (nc v))); cbn [andb]; try reflexivity.
      apply nth_error_upd_other. intros F. apply E.
      assert (Z.to_nat y = Z.to_nat y' /\ Z.to_nat x = Z.to_nat x') by (apply (pos_inj (nc v)); [lia|lia|symmetry; exact F]).
      f_equal; lia.
Qed.
Definition good (h w : nat) (s : state) : Prop :=
  nr (fst s) = h /\ nc (fst s) = w /\ wf (fst s) /\ nr (snd s) = h /\ nc (snd s) = w /\ wf (snd s).
(* what happens at one pixel (x, y) of the destination *)
Definition at_gain (v : option Q) (e w : Q) (s s' : state) (y x : Z) : Prop := exists r r' k k',
  px (fst s) y x = Some r /\ px (fst s') y x = Some r' /\ px (snd s) y x = Some k /\ px (snd s') y x = Some k' /\
  gain v e w r r' k k'.
Definition at_same (s s' : state) (y x : Z) : Prop :=
  px (fst s') y x = px (fst s) y x /\ px (snd s') y x = px (snd s) y x.
Lemma good_px h w s x y : good h w s -> on_image h w x y -> exists r k, px (fst s) y x = Some r /\ px (snd s) y x = Some k.
Proof.
  intros (A & B & C & D & E & F) [H1 H2].
  destruct (px_some (fst s) y x C) as (r & R); [lia|lia|]. destruct (px_some (snd s) y x F) as (k & K); [lia|lia|].
  exists r, k. auto.
Qed.
Lemma same_gain h w v e s s' x y : good h w s -> on_image h w x y -> at_same s s' y x -> at_gain v e 0 s s' y x.
Proof.
  intros G O [S1 S2]. destruct (good_px _ _ _ _ _ G O) as (r & k & R & K). exists r, r, k, k.
  rewrite S1, S2. repeat split; auto. left. repeat split; reflexivity.
Qed.
Lemma gain_eq v e w w' r r' k k' : w == w' -> gain v e w r r' k k' -> gain v e w' r r' k k'.
Proof.
  intros E [(A & B & C)|(A & B)]; [left; repeat split; auto; lra|right]. split; [lra|].
  destruct v, r; try exact B. destruct B as (q' & -> & B). exists q'. split; [reflexivity|]. rewrite <- E. exact B.
Qed.

Section Pixel.
Variable imgs : img (option Q).
Variables ix iy : nat.
Variable v : option Q.
Hypothesis v_px : pget imgs iy ix = Ok v.
Variables h w : nat.

(* both sums are updated *)
Lemma put_ok s f wt e x y : good h w s -> on_image h w x y ->
  (forall b, v = Some b -> exists q, fmul (Some b) f = Some q /\ q == b * e * wt) -> (v = None -> True) ->
  exists s', (res <- add_flux imgs ix iy f (fst s) (Z.to_nat x) (Z.to_nat y) ;;
              wei <- add_weight (snd s) (Z.to_nat x) (Z.to_nat y) wt ;; Ok (res, wei)) = Ok s' /\
    good h w s' /\ at_gain v e wt s s' y x /\ (forall y' x', (y', x') <> (y, x) -> at_same s s' y' x').
Proof.
  intros G O Hf _. destruct (good_px _ _ _ _ _ G O) as (r & k & R & K).
  destruct G as (A & B & C & D & E & F). destruct O as [O1 O2]. destruct s as [res wei]. cbn [fst snd] in *.
  unfold add_flux, add_weight.
  destruct (pget_some res (Z.to_nat y) (Z.to_nat x) C) as (r0 & R0 & R1); [lia|lia|].
  rewrite !Z2Nat.id in R1 by lia. rewrite R in R1. injection R1 as <-. rewrite R0. cbn [obind]. rewrite v_px. cbn [obind].
  destruct (pset_px res y x (fadd r (fmul v f)) C) as (d & Ed & Wd & Pd); [lia|lia|]. rewrite Ed. cbn [obind].
  destruct (pget_some wei (Z.to_nat y) (Z.to_nat x) F) as (k0 & K0 & K1); [lia|lia|].
  rewrite !Z2Nat.id in K1 by lia. rewrite K in K1. injection K1 as <-. rewrite K0. cbn [obind].
  destruct (pset_px wei y x (k + wt) F) as (d' & Ed' & Wd' & Pd'); [lia|lia|]. rewrite Ed'. cbn [obind].
  eexists. split; [reflexivity|]. split; [|split].
  - repeat split; auto.
  - exists r, (fadd r (fmul v f)), k, (k + wt). cbn [fst snd]. rewrite Pd, Pd'.
    destruct (prod_eq_dec' (y, x) (y, x)) as [_|N]; [|congruence]. repeat split; auto.
    right. split; [reflexivity|]. destruct v as [b|]; [|destruct r; reflexivity].
    destruct (Hf b eq_refl) as (q & -> & Eq). destruct r as [r|]; [|reflexivity].
    exists (r + q). split; [reflexivity|]. rewrite Eq. reflexivity.
  - intros y' x' N. unfold at_same. cbn [fst snd]. rewrite Pd, Pd'. destruct (prod_eq_dec' (y', x') (y, x)); [contradiction|auto].
Qed.

Variable frac par : Q.
Hypothesis par_pos : 0 < par.
Let e : Q := frac / par.
Variable ps : list point.
Variable o : Z.
Definition W0 (yx : Z * Z) : Q := polyon_area (intersection o ps (snd yx) (fst yx)).
Lemma short_area (cp : list point) : (length cp < 3)%nat -> polyon_area cp == 0.
Proof. destruct cp as [|a [|b [|c l]]]; cbn; intros; try reflexivity. lia. Qed.
Lemma drizzle_to_ok s x y : good h w s -> on_image h w x y ->
  exists s', drizzle_to imgs ix iy frac ps par o s (y, x) = Ok s' /\ good h w s' /\ at_gain v e (W0 (y, x)) s s' y x /\
    (forall y' x', (y', x') <> (y, x) -> at_same s s' y' x').
Proof.
  intros G O. unfold drizzle_to. destruct s as [res wei] eqn:Es.
  destruct (Nat.ltb_spec (length (intersection o ps x y)) 3) as [L|L].
  - exists s. subst s. split; [reflexivity|]. split; [exact G|]. split; [|intros; split; reflexivity].
    destruct (same_gain h w v e (res, wei) (res, wei) x y G O) as (r & r' & k & k' & P1 & P2 & P3 & P4 & Gn); [split; reflexivity|].
    exists r, r', k, k'. repeat split; auto. eapply gain_eq; [|exact Gn]. symmetry. apply short_area. exact L.
  - rewrite <- Es in *. change res with (fst (res, wei)). change wei with (snd (res, wei)) at 2. rewrite <- Es.
    apply (put_ok s _ (W0 (y, x)) e x y G O); [|auto].
    intros b _. unfold fdiv, fmul. destruct (Qeq_bool par 0) eqn:Z.
    + apply Qeq_bool_iff in Z. lra.
    + eexists. split; [reflexivity|]. unfold e, W0. cbn [fst snd]. field. lra.
Qed.
Lemma drizzle_to_all l : forall s, NoDup l -> good h w s -> (forall y x, In (y, x) l -> on_image h w x y) ->
  exists s', ofold (drizzle_to imgs ix iy frac ps par o) l s = Ok s' /\ good h w s' /\
    (forall y x, In (y, x) l -> at_gain v e (W0 (y, x)) s s' y x) /\
    (forall y x, ~ In (y, x) l -> at_same s s' y x).
Proof.
  induction l as [|[y x] l IH]; intros s N G I.
  - exists s. split; [reflexivity|]. split; [exact G|]. split; [intros y x []|intros; split; reflexivity].
  - inversion N as [|? ? N1 N2]; subst.
    destruct (drizzle_to_ok s x y G (I y x (or_introl eq_refl))) as (s1 & E1 & G1 & A1 & S1).
    destruct (IH s1 N2 G1) as (s2 & E2 & G2 & A2 & S2); [intros; apply I; right; assumption|].
    exists s2. split; [cbn [ofold]; rewrite E1; exact E2|]. split; [exact G2|]. split.
    + intros y' x' [E|J].
      * injection E as <- <-. destruct A1 as (r & r' & k & k' & P1 & P2 & P3 & P4 & Gn). destruct (S2 y x N1) as [Q1 Q2].
        exists r, r', k, k'. rewrite Q1, Q2. auto.
      * assert (D : (y', x') <> (y, x)) by (intros E; injection E as -> ->; contradiction).
        destruct (S1 y' x' D) as [Q1 Q2]. destruct (A2 y' x' J) as (r & r' & k & k' & P1 & P2 & P3 & P4 & Gn).
        exists r, r', k, k'. rewrite <- Q1, <- Q2. auto.
    + intros y' x' J. assert (D : (y', x') <> (y, x)) by (intros E; apply J; left; symmetry; exact E).
      destruct (S1 y' x' D) as [Q1 Q2]. destruct (S2 y' x') as [Q3 Q4]; [intros K; apply J; right; exact K|].
      unfold at_same. rewrite Q3, Q4. auto.
Qed.
End Pixel.

(* --- the weights of one projection --- *)
Section Weights.
Variable o : Z.
Hypothesis o_unit : (o = 1 \/ o = -1)%Z.
Variables a b c d : point.
Let ps : list point := [a; b; c; d].
Hypothesis Sc : strictly_convex (inject_Z o) ps.

Lemma orient_ok : orientation ps = Ok o.
Proof.
  unfold orientation, ps. cbn [oget nth_error obind]. f_equal. destruct Sc as (S1 & _).
  assert (E : (fst b - fst a) * (snd c - snd b) - (snd b - snd a) * (fst c - fst b) == side a b c) by (unfold side; ring).
  destruct (qlt 0 ((fst b - fst a) * (snd c - snd b) - (snd b - snd a) * (fst c - fst b))) eqn:K.
  - apply qlt_spec in K. rewrite E in K. destruct o_unit as [->| ->]; [reflexivity|].
    change (inject_Z (-1)) with (-(1)) in S1. lra.
  - apply qlt_false in K. rewrite E in K. destruct o_unit as [->| ->]; [|reflexivity].
    change (inject_Z 1) with 1 in S1. lra.
Qed.
Lemma quad_polyon : polyon_area ps == quad_area (inject_Z o) ps.
Proof.
  unfold polyon_area, quad_area, ps. cbn [fan]. destruct Sc as (S1 & S2 & S3 & S4).
  assert (N : forall p q r : point, fst p * (snd q - snd r) + fst q * (snd r - snd p) + fst r * (snd p - snd q) == side p q r)
    by (intros; unfold side; ring).
  rewrite !N. destruct o_unit as [->| ->].
  - change (inject_Z 1) with 1 in *. rewrite !Qabs_pos by lra. field.
  - change (inject_Z (-1)) with (-(1)) in *. rewrite !Qabs_neg by lra. field.
Qed.
Lemma quad_pos : 0 < quad_area (inject_Z o) ps.
Proof.
  unfold quad_area, ps. destruct Sc as (S1 & S2 & S3 & S4). apply Qlt_shift_div_l; [lra|]. lra.
Qed.
Lemma ps_some : ps <> [].
Proof. discriminate. Qed.
Lemma loop_weighs x y : weighs (inject_Z o) ps x y (W0 ps o (y, x)).
Proof.
  destruct (overlap_area o o_unit 0 ps x y (Qle_refl 0) ps_some) as (A & HA).
  destruct (overlap_area o o_unit eps5 ps x y (Qlt_le_weak _ _ eps5_pos) ps_some) as (B & HB).
  exists A, B. split; [exact HA|]. split; [exact HB|]. unfold W0. cbn [fst snd].
  split; [apply (weight_low o o_unit ps x y B ps_some HB)|apply (weight_up o o_unit ps x y A ps_some HA)].
Qed.
Lemma tol_nn : 0 <= tol.
Proof. discriminate. Qed.
Lemma empty_weighs x y : (forall p q, in_pixel x y p q -> ~ inside (inject_Z o) ps p q) -> weighs (inject_Z o) ps x y 0.
Proof.
  intros H. exists 0, 0. split; [|split; [|split; lra]].
  - apply area_empty; [lra|]. intros p q [I J]. apply (H p q I J).
  - apply area_empty; [lra|]. intros p q [I J]. apply (H p q I). apply (deeper_less tol); [exact tol_nn|exact J].
Qed.
Variables lox hix loy hiy : Q.
Hypothesis Bx : Forall (fun x => lox <= x /\ x <= hix) (map fst ps).
Hypothesis By : Forall (fun y => loy <= y /\ y <= hiy) (map snd ps).
Lemma range_in p q : inside (inject_Z o) ps p q -> lox < p /\ p < hix /\ loy < q /\ q < hiy.
Proof.
  intros I. rewrite Forall_map in Bx, By.
  destruct (inside_bounds o a b c d 0 p q lox hix o_unit (Qle_refl 0) I) as (K1 & K2 & _ & _).
  destruct (inside_bounds o a b c d 0 p q loy hiy o_unit (Qle_refl 0) I) as (_ & _ & K3 & K4).
  split; [apply K1; eapply Forall_impl; [|exact Bx]; cbv beta; intros z Hz; apply Hz|].
  split; [apply K2; eapply Forall_impl; [|exact Bx]; cbv beta; intros z Hz; apply Hz|].
  split; [apply K3; eapply Forall_impl; [|exact By]; cbv beta; intros z Hz; apply Hz|].
  apply K4; eapply Forall_impl; [|exact By]; cbv beta; intros z Hz; apply Hz.
Qed.
Lemma half_floor_lo q z : (z < Qfloor (q + (1#2)))%Z -> inject_Z z + (1#2) <= q.
Proof.
  intros H. assert (L : inject_Z (z + 1) <= inject_Z (Qfloor (q + (1#2)))) by (rewrite <- Zle_Qle; lia).
  pose proof (Qfloor_le (q + (1#2))). rewrite inject_Z_plus in L. change (inject_Z 1) with 1 in L. lra.
Qed.
Lemma half_floor_hi q z : (Qfloor (q + (1#2)) < z)%Z -> q <= inject_Z z - (1#2).
Proof.
  intros H. assert (L : inject_Z (Qfloor (q + (1#2)) + 1) <= inject_Z z) by (rewrite <- Zle_Qle; lia).
  pose proof (Qlt_floor (q + (1#2))). lra.
Qed.
Lemma out_weighs x y : (x < Qfloor (lox + (1#2)) \/ Qfloor (hix + (1#2)) < x \/ y < Qfloor (loy + (1#2)) \/ Qfloor (hiy + (1#2)) < y)%Z ->
  weighs (inject_Z o) ps x y 0.
Proof.
  intros H. apply empty_weighs. intros p q (I1 & I2 & I3 & I4) J. destruct (range_in p q J) as (K1 & K2 & K3 & K4).
  destruct H as [H|[H|[H|H]]]; [apply half_floor_lo in H|apply half_floor_hi in H|apply half_floor_lo in H|apply half_floor_hi in H]; lra.
Qed.
Lemma ps_high y0 y1 : y0 <= loy -> hiy <= y1 -> Forall (high y0 y1) ps.
Proof.
  intros L U. rewrite Forall_map in By. eapply Forall_impl; [|exact By]. cbv beta. intros z Hz. unfold high. lra.
Qed.
(* the projection is in one pixel *)
Lemma one_weighs x y par : par == quad_area (inject_Z o) ps ->
  Qfloor (lox + (1#2)) = x -> Qfloor (hix + (1#2)) = x -> Qfloor (loy + (1#2)) = y -> Qfloor (hiy + (1#2)) = y ->
  weighs (inject_Z o) ps x y par.
Proof.
  intros Ep E1 E2 E3 E4.
  assert (Lx : inject_Z x - (1#2) <= lox) by (pose proof (Qfloor_le (lox + (1#2))) as H; rewrite E1 in H; lra).
  assert (Ly : inject_Z y - (1#2) <= loy) by (pose proof (Qfloor_le (loy + (1#2))) as H; rewrite E3 in H; lra).
  assert (Ux : hix <= inject_Z x + (1#2)).
  { pose proof (Qlt_floor (hix + (1#2))) as H. rewrite E2, inject_Z_plus in H. change (inject_Z 1) with 1 in H. lra. }
  assert (Uy : hiy <= inject_Z y + (1#2)).
  { pose proof (Qlt_floor (hiy + (1#2))) as H. rewrite E4, inject_Z_plus in H. change (inject_Z 1) with 1 in H. lra. }
  assert (HA : area (both (in_pixel x y) (inside (inject_Z o) ps)) (inject_Z y - (1#2)) (inject_Z y + (1#2)) par).
  { eapply area_eq; [reflexivity|reflexivity| |eapply area_ext; [|apply (strict_area o a b c d (inject_Z y - (1#2)) (inject_Z y + (1#2)) o_unit Sc); [lra|apply ps_high; assumption]]].
    - rewrite Ep. apply quad_polyon.
    - intros p q. unfold both. split; [|intros [_ I]; exact I]. intros I. split; [|exact I].
      destruct (range_in p q I) as (K1 & K2 & K3 & K4). unfold in_pixel. repeat split; lra. }
  destruct (overlap_area o o_unit tol ps x y tol_nn ps_some) as (B & HB).
  exists par, B. split; [exact HA|]. split; [exact HB|]. split; [|lra].
  eapply area_mono; [|exact HB|exact HA]. intros p q [I J]. split; [exact I|]. apply (deeper_less tol); [exact tol_nn|exact J].
Qed.
End Weights.

Lemma last_of_ok n : (Z.of_nat n < two63)%Z -> to_signed64 (wrap64 (Z.of_nat n - 1)) = (Z.of_nat n - 1)%Z.
Proof.
  intros H. destruct n as [|n].
  - reflexivity.
  - unfold to_signed64, wrap64. assert (T : two64 = (2 * two63)%Z) by reflexivity.
    rewrite Z.mod_small by lia. destruct (Z.ltb_spec (Z.of_nat (S n) - 1) two63); lia.
Qed.
Lemma zrange_in a b z : In z (zrange a b) <-> (a <= z <= b)%Z.
Proof.
  unfold zrange. rewrite in_map_iff. split.
  - intros (k & <- & I). apply in_seq in I. lia.
  - intros H. exists (Z.to_nat (z - a)). split; [lia|]. apply in_seq. lia.
Qed.
Lemma zrange_nodup a b : NoDup (zrange a b).
Proof.
  unfold zrange. apply FinFun.Injective_map_NoDup; [|apply seq_NoDup]. intros x y E. lia.
Qed.

Lemma pixel_ok imgs ix iy v frac ps o par h w s :
  pget imgs iy ix = Ok v -> (o = 1 \/ o = -1)%Z -> strictly_convex (inject_Z o) ps ->
  Forall (fun p => small (fst p) /\ small (snd p)) ps -> par == quad_area (inject_Z o) ps ->
  (Z.of_nat h < two63)%Z -> (Z.of_nat w < two63)%Z -> good h w s ->
  exists s' W, drizzle_pixel imgs ix iy frac ps par s = Ok s' /\ good h w s' /\
    (forall x y, on_image h w x y -> at_gain v (frac / par) (W (y, x)) s s' y x) /\
    spread (inject_Z o) ps h w W.
Proof.
  intros Hv Ho Sc Sm Ep Hh Hw G.
  destruct ps as [|a [|b [|c [|d [|e0 ps]]]]]; cbn [strictly_convex] in Sc; try contradiction.
  change (strictly_convex (inject_Z o) [a; b; c; d]) in Sc. set (P := [a; b; c; d]) in *.
  assert (Pp : 0 < par) by (rewrite Ep; apply (quad_pos o a b c d Sc)).
  unfold drizzle_pixel. destruct s as [res wei] eqn:Es.
  destruct G as (G1 & G2 & G3 & G4 & G5 & G6). cbn [fst snd] in *.
  assert (G : good h w s) by (subst s; repeat split; assumption).
  rewrite G4, G5, !last_of_ok by assumption.
  destruct (getbounds_spec (map snd P) (Z.of_nat h - 1)) as (loy & hiy & Ey & By & Iy1 & Iy2); [discriminate|rewrite Forall_map; eapply Forall_impl; [|exact Sm]; cbv beta; intros z Hz; apply Hz|].
  destruct (getbounds_spec (map fst P) (Z.of_nat w - 1)) as (lox & hix & Ex & Bx & Ix1 & Ix2); [discriminate|rewrite Forall_map; eapply Forall_impl; [|exact Sm]; cbv beta; intros z Hz; apply Hz|].
  rewrite Ey. cbn [obind]. rewrite Ex. cbn [obind].
  assert (Fx : (Qfloor (lox + (1#2)) <= Qfloor (hix + (1#2)))%Z).
  { apply floor_le. rewrite Forall_forall in Bx. destruct (Bx _ Ix1). lra. }
  assert (Fy : (Qfloor (loy + (1#2)) <= Qfloor (hiy + (1#2)))%Z).
  { apply floor_le. rewrite Forall_forall in By. destruct (By _ Iy1). lra. }
  set (fx0 := Qfloor (lox + (1#2))) in *. set (fx1 := Qfloor (hix + (1#2))) in *.
  set (fy0 := Qfloor (loy + (1#2))) in *. set (fy1 := Qfloor (hiy + (1#2))) in *.
  destruct ((Z.min (Z.of_nat h - 1) fy1 <? 0) || (Z.min (Z.of_nat w - 1) fx1 <? 0)
            || (Z.of_nat w <=? Z.max 0 fx0) || (Z.of_nat h <=? Z.max 0 fy0))%Z eqn:B1.
  - (* off the image *)
    exists s, (fun _ => 0). subst s. split; [reflexivity|]. split; [exact G|]. split.
    + intros x y O. apply (same_gain h w); [exact G|exact O|split; reflexivity].
    + left. intros x y [O1 O2]. apply (out_weighs o Ho a b c d lox hix loy hiy Bx By). fold fx0 fx1 fy0 fy1.
      rewrite !orb_true_iff, !Z.ltb_lt, !Z.leb_le in B1. lia.
  - rewrite !orb_false_iff, !Z.ltb_ge, !Z.leb_gt in B1.
    destruct ((Z.min (Z.of_nat w - 1) fx1 =? Z.max 0 fx0) && (Z.min (Z.of_nat h - 1) fy1 =? Z.max 0 fy0))%Z eqn:B2.
    + rewrite andb_true_iff, !Z.eqb_eq in B2. set (x0 := Z.max 0 fx0) in *. set (y0 := Z.max 0 fy0) in *.
      assert (O : on_image h w x0 y0) by (unfold on_image; lia).
      destruct (put_ok imgs ix iy v Hv h w s (Some frac) par (frac / par) x0 y0 G O) as (s' & E' & G' & A' & S').
      { intros z _. eexists. split; [reflexivity|]. field. lra. }
      { auto. }
      exists s', (fun yx => if prod_eq_dec' yx (y0, x0) then par else 0). subst s. cbn [fst snd] in E'. split; [exact E'|]. split; [exact G'|].
      split.
      * intros x y Oxy. destruct (prod_eq_dec' (y, x) (y0, x0)) as [E|E].
        -- injection E as -> ->. exact A'.
        -- apply (same_gain h w); [exact G|exact Oxy|apply S'; exact E].
      * assert (Out : forall x y, on_image h w x y -> (y, x) <> (y0, x0) -> weighs (inject_Z o) P x y 0).
        { intros x y [O1 O2] N. apply (out_weighs o Ho a b c d lox hix loy hiy Bx By). fold fx0 fx1 fy0 fy1.
          destruct (Z.eq_dec x x0) as [->|Nx]; [|lia]. destruct (Z.eq_dec y y0) as [->|Ny]; [contradiction|]. lia. }
        destruct (Z_le_gt_dec 0 fx0) as [C1|C1]; [destruct (Z_le_gt_dec fx1 (Z.of_nat w - 1)) as [C2|C2];
          [destruct (Z_le_gt_dec 0 fy0) as [C3|C3]; [destruct (Z_le_gt_dec fy1 (Z.of_nat h - 1)) as [C4|C4]|]|]|].
        -- left. intros x y Oxy. destruct (prod_eq_dec' (y, x) (y0, x0)) as [E|E].
           ++ injection E as -> ->. apply (one_weighs o Ho a b c d Sc lox hix loy hiy Bx By x0 y0 par Ep); fold fx0 fx1 fy0 fy1; lia.
           ++ apply Out; assumption.
        -- right. split.
           ++ intros Ig. unfold in_grid in Ig. apply in_map_iff in Iy2. destruct Iy2 as (z & Ez & Iz).
              rewrite Forall_forall in Ig. destruct (Ig z Iz) as (_ & _ & _ & K). rewrite Ez in K.
              assert (L : inject_Z (Z.of_nat h) <= inject_Z fy1) by (rewrite <- Zle_Qle; lia).
              pose proof (Qfloor_le (hiy + (1#2))) as Q. fold fy1 in Q. lra.
           ++ exists x0, y0. split; [exact O|]. split; [destruct (prod_eq_dec' (y0, x0) (y0, x0)); [exact Ep|congruence]|].
              intros x y Oxy N. destruct (prod_eq_dec' (y, x) (y0, x0)); [contradiction|]. split; [reflexivity|apply Out; assumption].
        -- right. split.
           ++ intros Ig. unfold in_grid in Ig. apply in_map_iff in Iy1. destruct Iy1 as (z & Ez & Iz).
              rewrite Forall_forall in Ig. destruct (Ig z Iz) as (_ & _ & K & _). rewrite Ez in K.
              assert (L : inject_Z (fy0 + 1) <= 0) by (change 0 with (inject_Z 0); rewrite <- Zle_Qle; lia).
              pose proof (Qlt_floor (loy + (1#2))) as Q. fold fy0 in Q. lra.
           ++ exists x0, y0. split; [exact O|]. split; [destruct (prod_eq_dec' (y0, x0) (y0, x0)); [exact Ep|congruence]|].
              intros x y Oxy N. destruct (prod_eq_dec' (y, x) (y0, x0)); [contradiction|]. split; [reflexivity|apply Out; assumption].
        -- right. split.
           ++ intros Ig. unfold in_grid in Ig. apply in_map_iff in Ix2. destruct Ix2 as (z & Ez & Iz).
              rewrite Forall_forall in Ig. destruct (Ig z Iz) as (_ & K & _ & _). rewrite Ez in K.
              assert (L : inject_Z (Z.of_nat w) <= inject_Z fx1) by (rewrite <- Zle_Qle; lia).
              pose proof (Qfloor_le (hix + (1#2))) as Q. fold fx1 in Q. lra.
           ++ exists x0, y0. split; [exact O|]. split; [destruct (prod_eq_dec' (y0, x0) (y0, x0)); [exact Ep|congruence]|].
              intros x y Oxy N. destruct (prod_eq_dec' (y, x) (y0, x0)); [contradiction|]. split; [reflexivity|apply Out; assumption].
        -- right. split.
           ++ intros Ig. unfold in_grid in Ig. apply in_map_iff in Ix1. destruct Ix1 as (z & Ez & Iz).
              rewrite Forall_forall in Ig. destruct (Ig z Iz) as (K & _ & _ & _). rewrite Ez in K.
              assert (L : inject_Z (fx0 + 1) <= 0) by (change 0 with (inject_Z 0); rewrite <- Zle_Qle; lia).
              pose proof (Qlt_floor (lox + (1#2))) as Q. fold fx0 in Q. lra.
           ++ exists x0, y0. split; [exact O|]. split; [destruct (prod_eq_dec' (y0, x0) (y0, x0)); [exact Ep|congruence]|].
              intros x y Oxy N. destruct (prod_eq_dec' (y, x) (y0, x0)); [contradiction|]. split; [reflexivity|apply Out; assumption].
    + assert (Eo : orientation P = Ok o) by apply (orient_ok o Ho a b c d Sc). rewrite Eo. cbn [obind].
      set (L := list_prod (zrange (Z.max 0 fy0) (Z.min (Z.of_nat h - 1) fy1)) (zrange (Z.max 0 fx0) (Z.min (Z.of_nat w - 1) fx1))).
      assert (IL : forall y x, In (y, x) L <-> ((Z.max 0 fy0 <= y <= Z.min (Z.of_nat h - 1) fy1) /\ (Z.max 0 fx0 <= x <= Z.min (Z.of_nat w - 1) fx1))%Z).
      { intros y x. unfold L. rewrite in_prod_iff, !zrange_in. tauto. }
      destruct (drizzle_to_all imgs ix iy v Hv h w frac par Pp P o L s) as (s' & E' & G' & A' & S').
      * apply NoDup_list_prod; apply zrange_nodup.
      * exact G.
      * intros y x I. apply IL in I. unfold on_image. lia.
      * rewrite Es in E'. exists s', (fun yx => if in_dec prod_eq_dec' yx L then W0 P o yx else 0). subst s.
        split; [exact E'|]. split; [exact G'|]. split.
        -- intros x y Oxy. destruct (in_dec prod_eq_dec' (y, x) L) as [I|I]; [apply A'; exact I|].
           apply (same_gain h w); [exact G|exact Oxy|apply S'; exact I].
        -- left. intros x y [O1 O2]. destruct (in_dec prod_eq_dec' (y, x) L) as [I|I]; [apply (loop_weighs o Ho a b c d)|].
           apply (out_weighs o Ho a b c d lox hix loy hiy Bx By). fold fx0 fx1 fy0 fy1. rewrite IL in I. lia.
Qed.
