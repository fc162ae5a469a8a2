(* Proofs about the whole image. *)
From Coq Require Import QArith Qabs Qround Lqa Setoid Morphisms Qminmax Lia.
From Verif Require Import Base ImageModel ImageSpec ImageProofs ImageProofs3.
From Verif Require Import DrizModel DrizSpec DrizProofs DrizProofs2 DrizProofs3 DrizProofs4 DrizProofs5 DrizProofs6 DrizProofs7 DrizProofs8 DrizProofs9 DrizProofs10.
Local Open Scope Q_scope.

(* --- polygons with equal corners --- *)
Lemma peq_side p p' q q' r r' : peq p p' -> peq q q' -> peq r r' -> side p q r == side p' q' r'.
Proof. intros [A B] [C D] [E F]. unfold side. rewrite A, B, C, D, E, F. reflexivity. Qed.
Lemma peq_refl p : peq p p.
Proof. split; reflexivity. Qed.
Lemma peq_trans p q r : peq p q -> peq q r -> peq p r.
Proof. intros [A B] [C D]. split; [rewrite A; exact C|rewrite B; exact D]. Qed.
Lemma peq_sym p q : peq p q -> peq q p.
Proof. intros [A B]. split; symmetry; assumption. Qed.
Definition polyeq (ps ps' : list point) : Prop := exists a b c d a' b' c' d',
  ps = [a; b; c; d] /\ ps' = [a'; b'; c'; d'] /\ peq a a' /\ peq b b' /\ peq c c' /\ peq d d'.
Lemma polyeq_sym ps ps' : polyeq ps ps' -> polyeq ps' ps.
Proof.
  intros (a & b & c & d & a' & b' & c' & d' & E & E' & A & B & C & D).
  exists a', b', c', d', a, b, c, d. repeat split; try assumption; symmetry; first [apply A|apply B|apply C|apply D].
Qed.
Lemma polyeq_deeper t o ps ps' x y : polyeq ps ps' -> deeper t o ps x y -> deeper t o ps' x y.
Proof.
  intros (a & b & c & d & a' & b' & c' & d' & -> & -> & A & B & C & D) H p q I.
  unfold deeper in H. cbn [edges path In] in *.
  destruct I as [E|[E|[E|[E|[]]]]]; injection E as <- <-;
    [rewrite <- (peq_side a a' b b' _ _ A B (peq_refl _))|rewrite <- (peq_side b b' c c' _ _ B C (peq_refl _))
    |rewrite <- (peq_side c c' d d' _ _ C D (peq_refl _))|rewrite <- (peq_side d d' a a' _ _ D A (peq_refl _))]; apply H; auto 6.
Qed.
Lemma polyeq_convex o ps ps' : polyeq ps ps' -> strictly_convex o ps -> strictly_convex o ps'.
Proof.
  intros (a & b & c & d & a' & b' & c' & d' & -> & -> & A & B & C & D) (S1 & S2 & S3 & S4).
  pose proof (peq_side a a' b b' c c' A B C) as E1. pose proof (peq_side a a' b b' d d' A B D) as E2.
  pose proof (peq_side a a' c c' d d' A C D) as E3. pose proof (peq_side b b' c c' d d' B C D) as E4.
  cbn [strictly_convex]. rewrite <- E1, <- E2, <- E3, <- E4. auto.
Qed.
Lemma polyeq_quad o ps ps' : polyeq ps ps' -> quad_area o ps == quad_area o ps'.
Proof.
  intros (a & b & c & d & a' & b' & c' & d' & -> & -> & A & B & C & D).
  cbn [quad_area]. rewrite (peq_side a a' b b' c c' A B C), (peq_side a a' c c' d d' A C D). reflexivity.
Qed.
Lemma polyeq_forall (P : point -> Prop) ps ps' : (forall p q, peq p q -> P p -> P q) -> polyeq ps ps' -> Forall P ps -> Forall P ps'.
Proof.
  intros H (a & b & c & d & a' & b' & c' & d' & -> & -> & A & B & C & D) F.
  inversion F as [|? ? F1 F2]; subst. inversion F2 as [|? ? F3 F4]; subst. inversion F4 as [|? ? F5 F6]; subst. inversion F6 as [|? ? F7 F8]; subst.
  repeat constructor; [apply (H a)|apply (H b)|apply (H c)|apply (H d)]; assumption.
Qed.
Lemma polyeq_weighs o ps ps' x y w : polyeq ps ps' -> weighs o ps x y w -> weighs o ps' x y w.
Proof.
  intros E (A & B & HA & HB & L). assert (E' := polyeq_sym _ _ E). exists A, B. split; [|split; [|exact L]].
  - eapply area_ext; [|exact HA]. intros p q. unfold both, inside. split; intros [I J]; (split; [exact I|]); eapply polyeq_deeper; eassumption.
  - eapply area_ext; [|exact HB]. intros p q. unfold both. split; intros [I J]; (split; [exact I|]); eapply polyeq_deeper; eassumption.
Qed.
Lemma polyeq_spread o ps ps' h w W : polyeq ps ps' -> spread o ps h w W -> spread o ps' h w W.
Proof.
  intros E [H|(N & x0 & y0 & O & Eq & H)]; [left|right].
  - intros x y Oxy. eapply polyeq_weighs; [exact E|apply H; exact Oxy].
  - split.
    + intros I. apply N. unfold in_grid in *. eapply polyeq_forall; [|apply polyeq_sym; exact E|exact I].
      cbv beta. intros p q [Ex Ey] Hp. rewrite <- Ex, <- Ey. exact Hp.
    + exists x0, y0. split; [exact O|]. split; [rewrite <- (polyeq_quad o _ _ E); exact Eq|].
      intros x y Oxy D. destruct (H x y Oxy D) as [H1 H2]. split; [exact H1|]. eapply polyeq_weighs; eassumption.
Qed.

(* --- sums of contributions --- *)
Lemma collects_nil : collects [] (Some 0) 0.
Proof. split; [reflexivity|]. split; [intros e w []|reflexivity]. Qed.
Lemma collects_snoc cs r k v e e' w r' k' : e == e' -> collects cs r k -> gain v e w r r' k k' -> collects (cs ++ [(v, e', w)]) r' k'.
Proof.
  intros Ee (K & R) G. unfold collects.
  assert (KE : qsum (map weight (cs ++ [(v, e', w)])) == qsum (map weight cs) + w).
  { rewrite map_app, qsum_app. cbn. ring. }
  assert (SE : qsum (map share (cs ++ [(v, e', w)])) == qsum (map share cs) + share (v, e', w)).
  { rewrite map_app, qsum_app. cbn [map qsum fold_right]. ring. }
  destruct G as [(Z & -> & ->)|(K' & G)].
  - split; [rewrite KE, K, Z; ring|]. destruct r as [q|].
    + destruct R as [R1 R2]. split.
      * intros e0 w0 I. apply in_app_iff in I. destruct I as [I|[E|[]]]; [apply (R1 e0 w0 I)|]. injection E as _ _ <-. exact Z.
      * rewrite SE, R2. cbn [share]. destruct v; [rewrite Z|]; ring.
    + destruct R as (e0 & w0 & I). exists e0, w0. apply in_app_iff. left. exact I.
  - split; [rewrite KE, K', K; ring|]. destruct r as [q|].
    + destruct R as [R1 R2]. destruct v as [b|].
      * destruct G as (q' & -> & Eq). split.
        -- intros e0 w0 I. apply in_app_iff in I. destruct I as [I|[E|[]]]; [apply (R1 e0 w0 I)|]. discriminate.
        -- rewrite SE, Eq, R2, Ee. cbn [share]. reflexivity.
      * rewrite G. exists e', w. apply in_app_iff. right. left. reflexivity.
    + assert (E : r' = None) by (destruct v; exact G). rewrite E. destruct R as (e0 & w0 & I). exists e0, w0. apply in_app_iff. left. exact I.
Qed.

Lemma corners_get s2d n y i : (i <= n)%nat -> oget (corners s2d n y) i = Ok (s2d (qn i - (1#2)) y).
Proof.
  intros H. unfold corners, oget. rewrite nth_error_map, nth_error_seq. destruct (Nat.ltb_spec i (n + 1)); [reflexivity|lia].
Qed.
Lemma qn_S i : qn (i + 1) == qn i + 1.
Proof. unfold qn. rewrite Nat2Z.inj_add, inject_Z_plus. reflexivity. Qed.
Lemma shrunk_one a b c d : polyeq [a; b; c; d] (shrunk 1 [a; b; c; d]).
Proof.
  do 8 eexists. split; [reflexivity|]. split; [reflexivity|]. unfold peq. cbn [fst snd]. repeat split; ring.
Qed.
Lemma shrunk_ext f f' ps ps' : f == f' -> polyeq ps ps' -> polyeq (shrunk f ps) (shrunk f' ps').
Proof.
  intros Ef (a & b & c & d & a' & b' & c' & d' & -> & -> & [A1 A2] & [B1 B2] & [C1 C2] & [D1 D2]).
  do 8 eexists. split; [reflexivity|]. split; [reflexivity|]. unfold peq. cbn [fst snd].
  rewrite Ef, A1, A2, B1, B2, C1, C2, D1, D2. repeat split; reflexivity.
Qed.
Lemma shrink_shrunk f a b c d : polyeq (shrink_to f [a; b; c; d]) (shrunk f [a; b; c; d]).
Proof.
  do 8 eexists. split; [reflexivity|]. split; [reflexivity|]. unfold peq. cbn [fst snd].
  assert (Hx : forall p q r s : Q, qmean [p; q; r; s] == (p + q + r + s) / 4).
  { intros. unfold qmean. cbn [fold_left length]. change (qn 4) with 4. field. }
  cbn [map]. rewrite !Hx. repeat split; reflexivity.
Qed.
Lemma polyeq_trans p q r : polyeq p q -> polyeq q r -> polyeq p r.
Proof.
  intros (a & b & c & d & a' & b' & c' & d' & -> & -> & A & B & C & D) (a0 & b0 & c0 & d0 & a1 & b1 & c1 & d1 & E & -> & A1 & B1 & C1 & D1).
  injection E as <- <- <- <-. do 8 eexists. split; [reflexivity|]. split; [reflexivity|].
  split; [eapply peq_trans; eassumption|]. split; [eapply peq_trans; eassumption|]. split; eapply peq_trans; eassumption.
Qed.

Section Image.
Variable imgs : img (option Q).
Variables h w : nat.
Hypothesis Hh : (Z.of_nat h < two63)%Z.
Hypothesis Hw : (Z.of_nat w < two63)%Z.
Variable o : Z.
Hypothesis o_unit : (o = 1 \/ o = -1)%Z.
(* the projections and the factors *)
Variable F : nat * nat -> list point.
Variable frac : Q.
Definition val (p : nat * nat) : option Q :=
  match pget imgs (fst p) (snd p) with Ok v => v | _ => None end.
Definition fac (p : nat * nat) : Q := frac / quad_area (inject_Z o) (F p).
Definition contribs (L : list (nat * nat)) (W : nat * nat -> Z * Z -> Q) (x y : Z) : list (option Q * Q * Q) :=
  map (fun p => (val p, fac p, W p (y, x))) L.
Definition inv (L : list (nat * nat)) (s : state) : Prop := good h w s /\ exists W,
  (forall p, In p L -> spread (inject_Z o) (F p) h w (W p)) /\
  (forall x y, on_image h w x y -> exists r k, px (fst s) y x = Some r /\ px (snd s) y x = Some k /\ collects (contribs L W x y) r k).
Definition regular (p : nat * nat) : Prop := strictly_convex (inject_Z o) (F p) /\ Forall moderate (F p).
Lemma nn_dec (p q : nat * nat) : {p = q} + {p <> q}.
Proof. decide equality; apply Nat.eq_dec. Qed.
Lemma inv_step L s iy ix v ps par : inv L s -> ~ In (iy, ix) L -> pget imgs iy ix = Ok v -> regular (iy, ix) ->
  polyeq ps (F (iy, ix)) -> par == quad_area (inject_Z o) (F (iy, ix)) ->
  exists s', drizzle_pixel imgs ix iy frac ps par s = Ok s' /\ inv (L ++ [(iy, ix)]) s'.
Proof.
  intros (G & W & Sp & Co) N Hv [R1 R2] Eq Ep. assert (Eq' := polyeq_sym _ _ Eq).
  destruct (pixel_ok imgs ix iy v frac ps o par h w s Hv o_unit) as (s' & W1 & E' & G' & A' & S'); try assumption.
  - eapply polyeq_convex; [exact Eq'|exact R1].
  - eapply polyeq_forall; [|exact Eq'|].
    + cbv beta. intros p q [Ex Ey] [[A B] [C D]]. unfold small. rewrite <- Ex, <- Ey. auto.
    + eapply Forall_impl; [|exact R2]. unfold moderate, small. cbv beta. tauto.
  - rewrite Ep. symmetry. apply polyeq_quad, Eq.
  - exists s'. split; [exact E'|]. split; [exact G'|].
    exists (fun p => if nn_dec p (iy, ix) then W1 else W p). split.
    + intros p I. destruct (nn_dec p (iy, ix)) as [->|D]; [eapply polyeq_spread; [exact Eq|exact S']|].
      apply in_app_iff in I. destruct I as [I|[I|[]]]; [apply Sp, I|congruence].
    + intros x y Oxy. destruct (Co x y Oxy) as (r & k & P1 & P2 & C).
      destruct (A' x y Oxy) as (r0 & r' & k0 & k' & Q1 & Q2 & Q3 & Q4 & Gn).
      rewrite P1 in Q1. injection Q1 as <-. rewrite P2 in Q3. injection Q3 as <-.
      exists r', k'. split; [exact Q2|]. split; [exact Q4|].
      assert (Ec : contribs (L ++ [(iy, ix)]) (fun p => if nn_dec p (iy, ix) then W1 else W p) x y
                   = contribs L W x y ++ [(v, fac (iy, ix), W1 (y, x))]).
      { unfold contribs. rewrite map_app. cbn [map]. f_equal.
        - apply map_ext_in. intros p I. destruct (nn_dec p (iy, ix)) as [->|D]; [contradiction|reflexivity].
        - destruct (nn_dec (iy, ix) (iy, ix)); [|congruence]. unfold val. cbn [fst snd]. rewrite Hv. reflexivity. }
      rewrite Ec. eapply collects_snoc; [|exact C|exact Gn]. unfold fac. rewrite Ep. reflexivity.
Qed.
Lemma inv_start s : good h w s -> (forall x y, on_image h w x y -> px (fst s) y x = Some (Some 0) /\ px (snd s) y x = Some 0) -> inv [] s.
Proof.
  intros G H. split; [exact G|]. exists (fun _ _ => 0). split; [intros p []|].
  intros x y O. destruct (H x y O) as [A B]. exists (Some 0), 0. split; [exact A|]. split; [exact B|]. apply collects_nil.
Qed.

(* --- the loops --- *)
Variable pr : params.
Variable s2d : s2d_map.
Hypothesis s2d_eq : plane_map s2d.
Variable larea : Q.
Hypothesis wfi : wf imgs.
Hypothesis F_def : forall iy ix, F (iy, ix) =
  if dest_pixfrac pr then shrunk (pixfrac pr) (footprint s2d 1 (inject_Z (Z.of_nat ix)) (inject_Z (Z.of_nat iy)))
  else footprint s2d (pixfrac pr) (inject_Z (Z.of_nat ix)) (inject_Z (Z.of_nat iy)).
Hypothesis frac_def : frac = pixfrac pr * pixfrac pr.
Hypothesis all_regular : forall iy ix, (iy < nr imgs)%nat -> (ix < nc imgs)%nat -> regular (iy, ix).
Hypothesis larea_ok : linearize pr = true ->
  forall iy ix, (iy < nr imgs)%nat -> (ix < nc imgs)%nat -> larea == quad_area (inject_Z o) (F (iy, ix)).

Lemma projection_ok iy ix yl : (ix < nc imgs)%nat -> yl == qn iy - (1#2) ->
  exists ps, projection pr s2d (corners s2d (nc imgs) yl) (corners s2d (nc imgs) (qn iy + (1#2))) ix iy = Ok ps /\ polyeq ps (F (iy, ix)).
Proof.
  intros Hx Hy. unfold projection. rewrite F_def. fold (qn ix) (qn iy).
  assert (Foot : forall f, f == 1 -> polyeq [s2d (qn ix - (1#2)) yl; s2d (qn (ix + 1) - (1#2)) yl; s2d (qn (ix + 1) - (1#2)) (qn iy + (1#2)); s2d (qn ix - (1#2)) (qn iy + (1#2))]
                           (footprint s2d f (qn ix) (qn iy))).
  { intros f Ef. do 8 eexists. split; [reflexivity|]. split; [reflexivity|].
    assert (E := qn_S ix).
    repeat match goal with |- _ /\ _ => split end; apply s2d_eq; rewrite ?E, ?Hy, Ef; field. }
  destruct (Qeq_bool (pixfrac pr) 1) eqn:E1; cbn [orb andb negb].
  - apply Qeq_bool_iff in E1. rewrite !(corners_get s2d) by lia. cbn [obind]. eexists. split; [reflexivity|].
    rewrite andb_false_r. destruct (dest_pixfrac pr).
    + eapply polyeq_trans; [apply shrunk_one|]. apply shrunk_ext; [symmetry; exact E1|]. apply Foot. reflexivity.
    + apply Foot. exact E1.
  - destruct (dest_pixfrac pr); cbn [orb andb].
    + rewrite !(corners_get s2d) by lia. cbn [obind]. eexists. split; [reflexivity|].
      eapply polyeq_trans; [apply shrink_shrunk|]. apply shrunk_ext; [reflexivity|]. apply Foot. reflexivity.
    + eexists. split; [reflexivity|]. do 8 eexists. split; [reflexivity|]. split; [reflexivity|].
      repeat match goal with |- _ /\ _ => split end; apply s2d_eq; field.
Qed.
Lemma par_ok ps iy ix : (iy < nr imgs)%nat -> (ix < nc imgs)%nat -> polyeq ps (F (iy, ix)) ->
  (if linearize pr then larea else polyon_area ps) == quad_area (inject_Z o) (F (iy, ix)).
Proof.
  intros Hy Hx Eq. destruct (linearize pr) eqn:L; [apply larea_ok; auto|].
  destruct (all_regular iy ix Hy Hx) as [R _]. apply (polyeq_convex _ _ _ (polyeq_sym _ _ Eq)) in R.
  rewrite <- (polyeq_quad (inject_Z o) _ _ Eq). destruct Eq as (a & b & c & d & a' & b' & c' & d' & -> & _). apply (quad_polyon o o_unit a b c d R).
Qed.
Lemma row_loop L iy yl : forall n x0 s, (iy < nr imgs)%nat -> (x0 + n = nc imgs)%nat -> yl == qn iy - (1#2) ->
  inv (L ++ map (fun ix => (iy, ix)) (seq 0 x0)) s -> (forall ix, ~ In (iy, ix) L) ->
  exists s', ofold (fun s ix =>
         ps <- projection pr s2d (corners s2d (nc imgs) yl) (corners s2d (nc imgs) (qn iy + (1#2))) ix iy ;;
         let area := if linearize pr then larea else polyon_area ps in
         drizzle_pixel imgs ix iy (pixfrac pr * pixfrac pr)%Q ps area s) (seq x0 n) s = Ok s' /\
    inv (L ++ map (fun ix => (iy, ix)) (seq 0 (nc imgs))) s'.
Proof.
  induction n as [|n IH]; intros x0 s Hy En Hyl I N.
  - exists s. split; [reflexivity|]. rewrite Nat.add_0_r in En. subst x0. exact I.
  - cbn [seq ofold]. destruct (projection_ok iy x0 yl ltac:(lia) Hyl) as (ps & Ep & Eq). rewrite Ep. cbn [obind].
    destruct (pget_some imgs iy x0 wfi Hy ltac:(lia)) as (v & Ev & _).
    destruct (inv_step _ s iy x0 v ps (if linearize pr then larea else polyon_area ps) I) as (s1 & E1 & I1).
    + intros J. apply in_app_iff in J. destruct J as [J|J]; [apply (N x0 J)|]. apply in_map_iff in J. destruct J as (z & Ez & Jz).
      injection Ez as ->. apply in_seq in Jz. lia.
    + exact Ev.
    + apply all_regular; lia.
    + exact Eq.
    + apply par_ok; [exact Hy|lia|exact Eq].
    + rewrite <- frac_def. rewrite E1. cbn [obind]. rewrite frac_def. apply IH; [exact Hy|lia|exact Hyl| |exact N].
      rewrite seq_S, map_app, app_assoc. exact I1.
Qed.
Lemma all_rows : forall n y0 yl s, (y0 + n = nr imgs)%nat -> yl == qn y0 - (1#2) -> inv (list_prod (seq 0 y0) (seq 0 (nc imgs))) s ->
  exists pl s', ofold (drizzle_row pr s2d larea imgs) (seq y0 n) (corners s2d (nc imgs) yl, s) = Ok (pl, s') /\
    inv (pixels (nr imgs) (nc imgs)) s'.
Proof.
  induction n as [|n IH]; intros y0 yl s En Hyl I.
  - eexists _, s. split; [reflexivity|]. rewrite Nat.add_0_r in En. subst y0. exact I.
  - cbn [seq ofold]. unfold drizzle_row at 1.
    destruct (row_loop (list_prod (seq 0 y0) (seq 0 (nc imgs))) y0 yl (nc imgs) 0 s) as (s1 & E1 & I1); [lia|reflexivity|exact Hyl| | |].
    + cbn [seq map]. rewrite app_nil_r. exact I.
    + intros ix J. apply in_prod_iff in J. destruct J as [J _]. apply in_seq in J. lia.
    + cbv zeta in E1 |- *. rewrite E1. cbn [obind]. apply IH; [lia| |].
      * rewrite <- Nat.add_1_r, qn_S. ring.
      * rewrite seq_S. cbn [Nat.add].
        assert (Lp : forall (l l' : list nat) (m : list nat), list_prod (l ++ l') m = list_prod l m ++ list_prod l' m).
        { intros l l' m. induction l as [|z l IHl]; [reflexivity|]. cbn [app list_prod]. rewrite IHl, app_assoc. reflexivity. }
        rewrite Lp. cbn [list_prod]. rewrite app_nil_r. exact I1.
Qed.
End Image.
