(* Lemmas on masks of rectangles. *)
From Coq Require Import ZifyBool ZifyNat.
From Verif Require Import Base IndexModel VecModel ImageModel ImageSpec ImageProofs HullModel HullSpec HullProperties CmaskModel CmaskSpec CmaskProofs.
Local Open Scope Z_scope.

Lemma in_hull_box k s px py hw hh ca sa x y : 0 < k -> ca * ca + sa * sa = k * k -> 0 <= hw -> 0 <= hh ->
  in_hull_of (points (box_y k py hw hh ca sa) (box_x k px hw hh ca sa)) (s * k * y, s * k * x) <-> in_box s k px py hw hh ca sa x y.
Proof.
  intros Hk Hc Hw Hh. unfold in_hull_of, in_box. cbn [box_y box_x map points combine fst snd]. cbv zeta.
  set (dx := s * x - px). set (dy := s * y - py).
  replace (s * k * x) with (k * (dx + px)) by (unfold dx; ring). replace (s * k * y) with (k * (dy + py)) by (unfold dy; ring).
  clearbody dx dy. split.
  - intros H. split.
    + apply Z.abs_le. split.
      * assert (K := H (- sa) (- ca) (hw * (k * k) - k * (px * ca + py * sa))).
        lapply K; [intros G; nia|]. rewrite <- Hc. intros p [<-|[<-|[<-|[<-|[]]]]]; cbn [fst snd]; nia.
      * assert (K := H sa ca (hw * (k * k) + k * (px * ca + py * sa))).
        lapply K; [intros G; nia|]. rewrite <- Hc. intros p [<-|[<-|[<-|[<-|[]]]]]; cbn [fst snd]; nia.
    + apply Z.abs_le. split.
      * assert (K := H (- ca) sa (hh * (k * k) - k * (py * ca - px * sa))).
        lapply K; [intros G; nia|]. rewrite <- Hc. intros p [<-|[<-|[<-|[<-|[]]]]]; cbn [fst snd]; nia.
      * assert (K := H ca (- sa) (hh * (k * k) + k * (py * ca - px * sa))).
        lapply K; [intros G; nia|]. rewrite <- Hc. intros p [<-|[<-|[<-|[<-|[]]]]]; cbn [fst snd]; nia.
  - intros (BU & BV) a b c H.
    assert (H1 := H _ (or_introl eq_refl)). assert (H2 := H _ (or_intror (or_introl eq_refl))).
    assert (H3 := H _ (or_intror (or_intror (or_introl eq_refl)))). assert (H4 := H _ (or_intror (or_intror (or_intror (or_introl eq_refl))))).
    cbn [fst snd] in *. clear H.
    set (A := a * sa + b * ca). set (B := a * ca - b * sa). set (c' := c - k * (a * py + b * px)).
    assert (E1 : hw * A + hh * B <= c') by (unfold A, B, c'; lia). assert (E2 : hw * A - hh * B <= c') by (unfold A, B, c'; lia).
    assert (E3 : - (hw * A) - hh * B <= c') by (unfold A, B, c'; lia). assert (E4 : - (hw * A) + hh * B <= c') by (unfold A, B, c'; lia).
    assert (E : hw * Z.abs A + hh * Z.abs B <= c'). { clear - E1 E2 E3 E4. destruct (Z.abs_spec A) as [[_ ->]|[_ ->]], (Z.abs_spec B) as [[_ ->]|[_ ->]]; lia. }
    set (U := dx * ca + dy * sa) in *. set (V := dy * ca - dx * sa) in *.
    assert (I : k * k * (a * dy + b * dx) = A * U + B * V). { rewrite <- Hc. unfold A, B, U, V. ring. }
    assert (AU : A * U <= Z.abs A * (hw * k)). { clear - BU. pose proof (Z.abs_nonneg A). assert (A * U <= Z.abs A * Z.abs U) by (rewrite <- Z.abs_mul; lia). nia. }
    assert (BV' : B * V <= Z.abs B * (hh * k)). { clear - BV. pose proof (Z.abs_nonneg B). assert (B * V <= Z.abs B * Z.abs V) by (rewrite <- Z.abs_mul; lia). nia. }
    assert (F : k * (a * dy + b * dx) <= c'). { clearbody A B U V c'. clear - Hk I AU BV' E. set (t := a * dy + b * dx) in *. clearbody t.
      assert (k * (k * t) <= k * c') by nia. nia. }
    unfold c' in F. lia.
Qed.
Lemma box_flat k px py hw hh ca sa : 0 < k -> ca * ca + sa * sa = k * k -> 0 < hw -> 0 < hh ->
  ~ collinear (points (box_y k py hw hh ca sa) (box_x k px hw hh ca sa)).
Proof.
  intros Hk Hc Hw Hh H. cbn [box_y box_x map points combine] in H.
  assert (K := H _ _ _ (or_introl eq_refl) (or_intror (or_introl eq_refl)) (or_intror (or_intror (or_introl eq_refl)))).
  unfold area2 in K. cbn [fst snd] in K.
  assert (P : 0 < 4 * (hw * hh) * (k * k)) by nia. rewrite <- Hc in P. clear - K P. lia.
Qed.
(* bounds of the corners *)
Lemma zmin_le l v : In v l -> zmin l <= v.
Proof.
  unfold zmin. generalize (hd 0 l). intros d. induction l as [|a l IH]; [intros []|]. cbn [fold_right]. intros [->|I]; [lia|]. specialize (IH I). lia.
Qed.
Lemma zmax_ge l v : In v l -> v <= zmax l.
Proof.
  unfold zmax. generalize (hd 0 l). intros d. induction l as [|a l IH]; [intros []|]. cbn [fold_right]. intros [->|I]; [lia|]. specialize (IH I). lia.
Qed.
Lemma zmin_in b l : l <> [] -> (forall v, In v l -> b <= v) -> b <= zmin l.
Proof.
  intros Hl H. assert (D : b <= hd 0 l). { destruct l; [congruence|]. apply H. left. reflexivity. }
  unfold zmin. revert D. generalize (hd 0 l). intros d D. clear Hl. induction l as [|a l IH]; [exact D|]. cbn [fold_right].
  specialize (H a (or_introl eq_refl)) as Ha. specialize (IH (fun v I => H v (or_intror I))). lia.
Qed.
Lemma zmax_in b l : l <> [] -> (forall v, In v l -> v <= b) -> zmax l <= b.
Proof.
  intros Hl H. assert (D : hd 0 l <= b). { destruct l; [congruence|]. apply H. left. reflexivity. }
  unfold zmax. revert D. generalize (hd 0 l). intros d D. clear Hl. induction l as [|a l IH]; [exact D|]. cbn [fold_right].
  specialize (H a (or_introl eq_refl)) as Ha. specialize (IH (fun v I => H v (or_intror I))). lia.
Qed.
Lemma ufloor_le u z v : 0 < u -> z <= u * v -> ufloor u z <= v.
Proof. intros Hu H. unfold ufloor. apply Z.div_le_upper_bound in H; lia. Qed.
Lemma uceil_ge u z v : 0 < u -> u * v <= z -> v <= uceil u z.
Proof. intros Hu H. unfold uceil. assert (K : - z <= u * - v) by lia. apply Z.div_le_upper_bound in K; lia. Qed.
Lemma to_int_ok u b z : 0 < u -> 0 < b -> b < 2 ^ 63 -> Z.abs z <= u * b -> to_int (ufloor u z) = Ok (ufloor u z) /\ to_int (uceil u z) = Ok (uceil u z).
Proof.
  intros Hu Hb B H.
  assert (ufloor u z <= b) by (apply ufloor_le; lia). assert (- b <= uceil u z) by (apply uceil_ge; lia).
  assert (- b <= ufloor u z). { unfold ufloor. apply Z.div_le_lower_bound; lia. }
  assert (uceil u z <= b). { unfold uceil. assert (- b <= - z / u) by (apply Z.div_le_lower_bound; lia). lia. }
  unfold to_int. split; [replace ((- 2 ^ 63 <=? ufloor u z) && (ufloor u z <? 2 ^ 63)) with true by lia|replace ((- 2 ^ 63 <=? uceil u z) && (uceil u z <? 2 ^ 63)) with true by lia]; reflexivity.
Qed.
Lemma trig_le c s k : 0 < k -> c * c + s * s = k * k -> Z.abs c <= k /\ Z.abs s <= k.
Proof. intros Hk H. split; apply Z.abs_le; nia. Qed.
Lemma mul_abs a b m n : Z.abs a <= m -> Z.abs b <= n -> Z.abs (a * b) <= m * n.
Proof. intros. rewrite Z.abs_mul. pose proof (Z.abs_nonneg a). pose proof (Z.abs_nonneg b). nia. Qed.
Lemma corner_le k p xo yo hw hh a b : 0 < k -> Z.abs xo <= hw -> Z.abs yo <= hh -> Z.abs a <= k -> Z.abs b <= k ->
  Z.abs (xo * a + yo * b + p * k) <= (hw + hh + Z.abs p) * k.
Proof.
  intros Hk Hx Hy Ha Hb. pose proof (mul_abs xo a hw k Hx Ha). pose proof (mul_abs yo b hh k Hy Hb).
  assert (Z.abs (p * k) <= Z.abs p * k) by (apply mul_abs; lia). lia.
Qed.
Lemma box_x_le k px hw hh ca sa v : 0 < k -> ca * ca + sa * sa = k * k -> 0 <= hw -> 0 <= hh -> In v (box_x k px hw hh ca sa) ->
  Z.abs v <= (hw + hh + Z.abs px) * k.
Proof.
  intros Hk Hc Hw Hh I. destruct (trig_le ca sa k Hk Hc) as (A & B). unfold box_x in I. apply in_map_iff in I. destruct I as ((xo & yo) & <- & I).
  replace (xo * ca - yo * sa + px * k) with (xo * ca + yo * - sa + px * k) by ring.
  apply corner_le; [exact Hk| | |lia|lia]; destruct I as [I|[I|[I|[I|[]]]]]; injection I as <- <-; lia.
Qed.
Lemma box_y_le k py hw hh ca sa v : 0 < k -> ca * ca + sa * sa = k * k -> 0 <= hw -> 0 <= hh -> In v (box_y k py hw hh ca sa) ->
  Z.abs v <= (hw + hh + Z.abs py) * k.
Proof.
  intros Hk Hc Hw Hh I. destruct (trig_le ca sa k Hk Hc) as (A & B). unfold box_y in I. apply in_map_iff in I. destruct I as ((xo & yo) & <- & I).
  replace (yo * ca + xo * sa + py * k) with (xo * sa + yo * ca + py * k) by ring.
  apply corner_le; [exact Hk| | |lia|lia]; destruct I as [I|[I|[I|[I|[]]]]]; injection I as <- <-; lia.
Qed.
Lemma bound_ok u b l : 0 < u -> 0 < b -> b < 2 ^ 63 -> l <> [] -> (forall v, In v l -> Z.abs v <= u * b) ->
  to_int (ufloor u (zmin l)) = Ok (ufloor u (zmin l)) /\ to_int (uceil u (zmax l)) = Ok (uceil u (zmax l)).
Proof.
  intros Hu Hb B Hl H. assert (- (u * b) <= zmin l) by (apply zmin_in; [exact Hl|intros v I; specialize (H v I); lia]).
  assert (zmax l <= u * b) by (apply zmax_in; [exact Hl|intros v I; specialize (H v I); lia]).
  assert (zmin l <= zmax l). { destruct l as [|a l]; [congruence|]. pose proof (zmin_le (a :: l) a (or_introl eq_refl)). pose proof (zmax_ge (a :: l) a (or_introl eq_refl)). lia. }
  split; apply (to_int_ok u b); lia.
Qed.

(* the loop *)
Lemma or_all {P} (pos : P -> nat) (q : P -> outcome bool) (T : P -> Prop) ps d :
  (forall p, In p ps -> (pos p < length d)%nat /\ exists c, q p = Ok c /\ (c = true <-> T p)) ->
  exists d', ofold (fun (d : list bool) p => b <- oget d (pos p) ;; c <- (if b then Ok true else q p) ;; oset d (pos p) c) ps d = Ok d' /\
    length d' = length d /\
    forall i b, nth_error d i = Some b -> exists b', nth_error d' i = Some b' /\ (b' = true <-> b = true \/ exists p, In p ps /\ pos p = i /\ T p).
Proof.
  revert d. induction ps as [|p ps IH]; intros d H; cbn [ofold].
  - exists d. split; [reflexivity|]. split; [reflexivity|]. intros i b E. exists b. split; [exact E|]. split; [tauto|]. intros [K|(p & [] & _)]; exact K.
  - destruct (H p (or_introl eq_refl)) as (L & c & Eq & Hc).
    destruct (nth_error d (pos p)) as [b|] eqn:Eb; [|apply nth_error_None in Eb; lia].
    rewrite (proj2 (oget_Ok _ _ _ _) Eb). cbn [obind]. set (c' := b || c).
    assert (E' : (if b then Ok true else q p) = Ok c'). { unfold c'. destruct b; [reflexivity|]. rewrite Eq. reflexivity. }
    rewrite E'. cbn [obind]. unfold oset. replace (Nat.ltb (pos p) (length d)) with true by lia. cbn [obind].
    destruct (IH (upd d (pos p) c')) as (d' & E & L' & G).
    { intros p' I. rewrite upd_length. apply H. right. exact I. }
    exists d'. split; [exact E|]. rewrite L', upd_length. split; [reflexivity|]. intros i b0 Ei.
    destruct (Nat.eq_dec i (pos p)) as [->|N].
    + rewrite Eb in Ei. injection Ei as <-. destruct (G (pos p) c') as (b' & Eb' & Hb'); [apply nth_error_upd_same; exact L|].
      exists b'. split; [exact Eb'|]. rewrite Hb'. unfold c'. rewrite Bool.orb_true_iff, Hc. split.
      * intros [[K|K]|(p' & I & E1 & T1)]; [left; exact K|right; exists p; split; [left; reflexivity|auto]|right; exists p'; split; [right; exact I|auto]].
      * intros [K|(p' & [->|I] & E1 & T1)]; [left; left; exact K|left; right; exact T1|right; exists p'; auto].
    + destruct (G i b0) as (b' & Eb' & Hb'); [rewrite nth_error_upd_other by congruence; exact Ei|].
      exists b'. split; [exact Eb'|]. rewrite Hb'. split; (intros [K|(p' & I & E1 & T1)]; [left; exact K|right]).
      * exists p'. split; [right; exact I|auto].
      * destruct I as [->|I]; [congruence|]. exists p'. auto.
Qed.
Lemma in_zupto a b v : In v (zupto a b) <-> a <= v <= b.
Proof.
  unfold zupto. rewrite in_map_iff. split.
  - intros (i & <- & I). apply in_seq in I. lia.
  - intros H. exists (Z.to_nat (v - a)). rewrite in_seq. lia.
Qed.

Lemma box_ok st eps s k px py hw hh ca sa m : 0 < s -> 0 < k -> ca * ca + sa * sa = k * k -> 0 < hw -> 0 < hh ->
  hw + hh + Z.abs px <= s * 2 ^ 62 -> hw + hh + Z.abs py <= s * 2 ^ 62 ->
  sorts (less (box_y k py hw hh ca sa) (box_x k px hw hh ca sa)) st ->
  (0 < nr m)%nat -> (0 < nc m)%nat -> length (pix m) = (nr m * nc m)%nat ->
  exists m', mask_box st eps s k px py hw hh ca sa m = Ok m' /\ nr m' = nr m /\ nc m' = nc m /\ length (pix m') = length (pix m) /\
    forall i j b, (i < nr m)%nat -> (j < nc m)%nat -> nth_error (pix m) (i * nc m + j) = Some b ->
      exists b', nth_error (pix m') (i * nc m + j) = Some b' /\
        (b' = true <-> b = true \/ in_box s k px py hw hh ca sa (Z.of_nat j) (Z.of_nat i)).
Proof.
  intros Hs Hk Hc Hw Hh Bx By Hst Hr Hn Hl. unfold mask_box.
  replace (Nat.ltb 0 (nr m * nc m)) with true by nia. cbn [check obind]. cbv zeta.
  assert (Hw' : 0 <= hw) by lia. assert (Hh' : 0 <= hh) by lia.
  assert (Hu : 0 < s * k) by nia. set (u := s * k) in *.
  set (xr := box_x k px hw hh ca sa). set (yr := box_y k py hw hh ca sa).
  destruct (bound_ok u (2 ^ 62) xr) as (-> & ->); [lia|lia|lia|discriminate| |].
  { intros v I. apply box_x_le in I; [|assumption..]. unfold u. nia. }
  destruct (bound_ok u (2 ^ 62) yr) as (-> & ->); [lia|lia|lia|discriminate| |].
  { intros v I. apply box_y_le in I; [|assumption..]. unfold u. nia. }
  cbn [obind].
  assert (IB : forall x y, in_box s k px py hw hh ca sa x y -> ufloor u (zmin xr) <= x <= uceil u (zmax xr) /\ ufloor u (zmin yr) <= y <= uceil u (zmax yr)).
  { intros x y I. apply in_hull_box in I; [|assumption..]. fold u in I. fold xr yr in I. unfold in_hull_of in I. cbn [fst snd] in I.
    assert (Q1 : forall p, In p (points yr xr) -> In (fst p) yr /\ In (snd p) xr).
    { intros (p & q) J. split; [exact (in_combine_l _ _ _ _ J)|exact (in_combine_r _ _ _ _ J)]. }
    assert (I1 := I 0 1 (zmax xr)). assert (I2 := I 0 (-1) (- zmin xr)). assert (I3 := I 1 0 (zmax yr)). assert (I4 := I (-1) 0 (- zmin yr)).
    split; split.
    - apply ufloor_le; [exact Hu|]. lapply I2; [lia|]. intros p J. apply Q1 in J. pose proof (zmin_le _ _ (proj2 J)). lia.
    - apply uceil_ge; [exact Hu|]. lapply I1; [lia|]. intros p J. apply Q1 in J. pose proof (zmax_ge _ _ (proj2 J)). lia.
    - apply ufloor_le; [exact Hu|]. lapply I4; [lia|]. intros p J. apply Q1 in J. pose proof (zmin_le _ _ (proj1 J)). lia.
    - apply uceil_ge; [exact Hu|]. lapply I3; [lia|]. intros p J. apply Q1 in J. pose proof (zmax_ge _ _ (proj1 J)). lia. }
  set (x0 := ufloor u (zmin xr)) in *. set (x1 := uceil u (zmax xr)) in *. set (y0 := ufloor u (zmin yr)) in *. set (y1 := uceil u (zmax yr)) in *.
  destruct ((x1 <? 0) || (y1 <? 0) || (Z.of_nat (nc m) - 1 <? x0) || (Z.of_nat (nr m) - 1 <? y0)) eqn:Ec.
  - exists m. do 4 (split; [reflexivity|]). intros i j b Hi Hj E. exists b. split; [exact E|]. split; [tauto|]. intros [K|K]; [exact K|].
    apply IB in K. exfalso. clearbody x0 x1 y0 y1. lia.
  - destruct (C42_build st yr xr) as (h & Eh & _); [reflexivity|discriminate|exact Hst|]. rewrite Eh. cbn [obind].
    destruct (or_all (fun p => Z.to_nat (fst p) * nc m + Z.to_nat (snd p))%nat (fun p => in_convex_hull eps (u * fst p) (u * snd p) h)
      (fun p => in_box s k px py hw hh ca sa (snd p) (fst p)) (list_prod (zupto (Z.max y0 0) (Z.min y1 (Z.of_nat (nr m) - 1))) (zupto (Z.max x0 0) (Z.min x1 (Z.of_nat (nc m) - 1)))) (pix m)) as (d & E & Ld & G).
    { intros (y & x) I. apply in_prod_iff in I. rewrite !in_zupto in I. cbn [fst snd]. split; [rewrite Hl; apply pos_lt; lia|].
      destruct (C42_membership st yr xr h eps (u * y) (u * x) Hst Eh) as (c & Ecc & Hcc); [apply box_flat; assumption|].
      exists c. split; [exact Ecc|]. rewrite Hcc. apply in_hull_box; assumption. }
    assert (E' : ofold (fun (d : list bool) '(iy, ix) => b <- oget d (Z.to_nat iy * nc m + Z.to_nat ix) ;; c <- (if b then Ok true else in_convex_hull eps (u * iy) (u * ix) h) ;; oset d (Z.to_nat iy * nc m + Z.to_nat ix) c)
      (list_prod (zupto (Z.max y0 0) (Z.min y1 (Z.of_nat (nr m) - 1))) (zupto (Z.max x0 0) (Z.min x1 (Z.of_nat (nc m) - 1)))) (pix m) = Ok d).
    { rewrite <- E. apply (ofold_ext _ _ (fun _ => True)); [exact I| |auto]. intros d0 (iy & ix) _ _. reflexivity. }
    rewrite E'. cbn [obind]. eexists. split; [reflexivity|]. cbn [nr nc pix]. do 2 (split; [reflexivity|]). split; [exact Ld|].
    intros i j b Hi Hj Eb. destruct (G _ _ Eb) as (b' & Eb' & Hb'). exists b'. split; [exact Eb'|]. rewrite Hb'. split; (intros [K|K]; [left; exact K|right]).
    + destruct K as ((y & x) & I & Ep & T). apply in_prod_iff in I. rewrite !in_zupto in I. cbn [fst snd] in *.
      apply pos_inj in Ep; [|lia|lia]. destruct Ep as (<- & <-). rewrite !Z2Nat.id by lia. exact T.
    + exists (Z.of_nat i, Z.of_nat j). cbn [fst snd]. rewrite !Nat2Z.id. split; [|auto]. apply IB in K. apply in_prod_iff. rewrite !in_zupto. lia.
Qed.
