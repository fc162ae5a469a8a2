(* C107: proofs about psffit. *)
From Coq Require Import Lia.
From Verif Require Import Base VecModel VecProofs ImageModel ImageSpec ImageProofs ImageProofs3 MatModel MatProofs LinfitModel LinfitProofs PsfModel PsfProofs.
Local Open Scope nat_scope.

Lemma shows_wf {A} (v : img A) n m f : shows v n m f -> wf v.
Proof. intros (_ & _ & W & _). exact W. Qed.

Lemma px_range {A} (v : img A) x y u : px v x y = Some u -> (0 <= x < Z.of_nat (nr v))%Z /\ (0 <= y < Z.of_nat (nc v))%Z.
Proof. unfold px. destruct ((0 <=? x) && (x <? Z.of_nat (nr v)) && (0 <=? y) && (y <? Z.of_nat (nc v)))%Z eqn:E; [|discriminate]. lia. Qed.
(* the error of a pixel: an image of one pixel is the error of all *)
Definition error_at {A} (err : img A) (x y : Z) : option A := if (nr err =? 1) && (nc err =? 1) then px err 0 0 else px err x y.

Lemma fits_two a b h : (Z.of_nat a = 2 * h + 1 -> Z.of_nat b = 2 * h + 1 -> 0 <= h < 2 ^ 28 -> fits 2 (a * b))%Z.
Proof.
  intros A B H. unfold fits. change (Z.of_nat 2) with 2%Z. rewrite Nat2Z.inj_mul, A, B. unfold two64. assert ((2 * h + 1) * (2 * h + 1) <= (2 ^ 29 - 1) * (2 ^ 29 - 1))%Z by nia. lia.
Qed.

Section Fit.
Context {F : Type} (zero one : F) (fadd fsub fmul fdiv : F -> F -> F).
Context (fabs : F -> F) (flt : F -> F -> bool) (feqb : F -> F -> bool) (fsqrt : F -> F).
Variable max_error : F.
Notation fit := (linfit zero one fadd fsub fmul fdiv fabs flt feqb fsqrt).
Notation pfit := (psffit zero one fadd fsub fmul fdiv fabs flt feqb fsqrt max_error).
Definition finish (r : lres F) : outcome psfres :=
  if success r then
    match params r, errors r with
    | a :: b :: _, c :: d :: _ => Ok (Psfres a c b d (chi2 r))
    | _, _ => CheckFail
    end
  else Ok (Psfres None None None None (chi2 r)).

(* the errors for each pixel: those given, or the same for all *)
Lemma error_map_ok (im err : img (option F)) : wf im -> wf err -> (nr err = nr im /\ nc err = nc im) \/ (nr err = 1 /\ nc err = 1) ->
  exists e, error_map im err = Ok e /\ wf e /\ nr e = nr im /\ nc e = nc im /\
    (forall x y, (0 <= x < Z.of_nat (nr im))%Z -> (0 <= y < Z.of_nat (nc im))%Z -> px e x y = error_at err x y).
Proof.
  intros W We D. unfold error_map, error_at. destruct ((nr err =? 1) && (nc err =? 1)) eqn:O.
  - apply Bool.andb_true_iff in O. destruct O as [O1 O2]. apply Nat.eqb_eq in O1, O2. unfold wf in We. rewrite O1, O2 in We. destruct (pix err) as [|a [|b l]] eqn:P; try discriminate.
    eexists. split; [reflexivity|]. split; [unfold wf; cbn; apply repeat_length|]. split; [reflexivity|]. split; [reflexivity|]. intros x y Hx Hy. rewrite px_in_Z by (cbn; assumption). rewrite (px_in_Z err) by lia. rewrite P. cbn [pix nc]. change (Z.to_nat 0) with 0. cbn [Nat.mul Nat.add nth_error].
    assert (Z.to_nat x * nc im + Z.to_nat y < nr im * nc im) by (apply Nat2Z.inj_lt; rewrite Nat2Z.inj_add, !Nat2Z.inj_mul, !Z2Nat.id by lia; apply flat_bound; assumption). apply nth_error_repeat. assumption.
  - destruct D as [[E1 E2]|[E1 E2]]; [|rewrite E1, E2 in O; discriminate]. rewrite E1, E2, !Nat.eqb_refl. cbn [andb check obind]. exists err. repeat split; auto.
Qed.

Section Square.
Variables (psf : img F) (h : Z).
Hypothesis Wp : wf psf.
Hypothesis Hn : (Z.of_nat (nr psf) = 2 * h + 1 /\ Z.of_nat (nc psf) = 2 * h + 1)%Z.
Lemma psffit_cut (im err : img (option F)) p0 p1 rest : wf im -> wf err -> (nr err = nr im /\ nc err = nc im) \/ (nr err = 1 /\ nc err = 1) ->
  sane (Z.of_nat (nr im)) (Z.of_nat (nc im)) h p0 p1 ->
  exists ys es, pfit im err psf (p0 :: p1 :: rest) = (r <- fit (AV [nr psf; nc psf] ys) (AV [nr psf; nc psf] es) [AS one; AV [nr psf; nc psf] (pix psf)] ;; finish r) /\
    length ys = nr psf * nc psf /\ length es = nr psf * nc psf /\
    forall x y, (0 <= x <= 2 * h)%Z -> (0 <= y <= 2 * h)%Z ->
      exists v e, nth_error ys (Z.to_nat x * nc psf + Z.to_nat y) = Some v /\ nth_error es (Z.to_nat x * nc psf + Z.to_nat y) = Some e /\
        match px im (x + p0 - h) (y + p1 - h), error_at err (x + p0 - h) (y + p1 - h) with
        | Some (Some a), Some (Some b) => v = a /\ e = b
        | _, _ => v = zero /\ e = max_error
        end.
Proof.
  intros W We D S. unfold psffit. destruct (error_map_ok im err W We D) as (em & Ee & Wm & R1 & R2 & Pm). rewrite Ee. cbn [obind position]. rewrite (region_ok psf h Hn _ _ _ _ S). cbn [obind].
  pose proof S as (S1 & Hh & P0 & P1).
  assert (Bd : ((p0 + h - (p0 - h) + 1) * (p1 + h - (p1 - h) + 1) <= 1152921504606846975)%Z) by (replace (p0 + h - (p0 - h) + 1)%Z with (2 * h + 1)%Z by lia; replace (p1 + h - (p1 - h) + 1)%Z with (2 * h + 1)%Z by lia; clear - Hh; nia).
  destruct (subregion_spec im (p0 - h) (p1 - h) (p0 + h) (p1 + h) (Some zero) W S1 ltac:(lia) ltac:(lia) ltac:(unfold two63; lia) ltac:(unfold two63; lia) Bd) as (ic & Ei & Si). rewrite Ei. cbn [obind].
  destruct (subregion_spec em (p0 - h) (p1 - h) (p0 + h) (p1 + h) (Some max_error) Wm ltac:(rewrite R1, R2; exact S1) ltac:(lia) ltac:(lia) ltac:(unfold two63; lia) ltac:(unfold two63; lia) Bd) as (ec & Ec & Sc). rewrite Ec. cbn [obind].
  assert (Np : Z.to_nat (p0 + h - (p0 - h) + 1) = nr psf) by lia. assert (Nc : Z.to_nat (p1 + h - (p1 - h) + 1) = nc psf) by lia. rewrite Np, Nc in Si, Sc.
  destruct Si as (I1 & I2 & I3 & I4). destruct Sc as (C1 & C2 & C3 & C4). rewrite I1, I2. unfold wf in I3, C3. rewrite I1, I2 in I3. rewrite C1, C2 in C3.
  set (cells := map (fun p => both zero max_error (fst p) (snd p)) (combine (pix ic) (pix ec))).
  exists (map fst cells), (map snd cells). split; [reflexivity|]. assert (Lc : length cells = nr psf * nc psf) by (unfold cells; rewrite map_length, combine_length; lia). rewrite !map_length. split; [exact Lc|]. split; [exact Lc|].
  intros x y Hx Hy. specialize (I4 x y ltac:(lia) ltac:(lia)). specialize (C4 x y ltac:(lia) ltac:(lia)). rewrite px_in_Z in I4 by lia. rewrite px_in_Z in C4 by lia. rewrite I2 in I4. rewrite C2 in C4.
  set (k := Z.to_nat x * nc psf + Z.to_nat y) in *. unfold px_or in I4, C4. replace (x + (p0 - h))%Z with (x + p0 - h)%Z in * by lia. replace (y + (p1 - h))%Z with (y + p1 - h)%Z in * by lia.
  assert (Hcell : forall a b, nth_error (pix ic) k = Some a -> nth_error (pix ec) k = Some b -> nth_error cells k = Some (both zero max_error a b)).
  { intros a b A B. unfold cells. rewrite nth_error_map. assert (Hc : nth_error (combine (pix ic) (pix ec)) k = Some (a, b)) by (clear - A B; revert A B; generalize (pix ic) (pix ec); induction k; intros [|u l] [|v m] A B; try discriminate; cbn in *; [congruence|auto]). rewrite Hc. reflexivity. }
  assert (Pe : px em (x + p0 - h) (y + p1 - h) = match px im (x + p0 - h) (y + p1 - h) with Some _ => error_at err (x + p0 - h) (y + p1 - h) | None => None end).
  { destruct (px im (x + p0 - h) (y + p1 - h)) as [u|] eqn:U.
    - apply px_range in U. apply Pm; lia.
    - destruct (px em (x + p0 - h) (y + p1 - h)) as [u|] eqn:U'; [|reflexivity]. exfalso. apply px_range in U'. rewrite R1, R2 in U'. destruct (px_some im _ _ W (proj1 U') (proj2 U')) as (a & Ua). congruence. }
  destruct (px im (x + p0 - h) (y + p1 - h)) as [a|] eqn:Ua.
  - apply px_range in Ua. destruct (px_some em _ _ Wm ltac:(rewrite R1; exact (proj1 Ua)) ltac:(rewrite R2; exact (proj2 Ua))) as (b' & Eb'). rewrite Pe in C4, Eb'. rewrite Eb' in C4 |- *. clear Eb'. rename b' into b. rewrite !nth_error_map, (Hcell _ _ I4 C4). cbn [option_map]. do 2 eexists. split; [reflexivity|]. split; [reflexivity|]. destruct a as [a|], b as [b|]; cbn; auto.
  - rewrite Pe in C4. rewrite !nth_error_map, (Hcell _ _ I4 C4). cbn [option_map]. do 2 eexists. split; [reflexivity|]. split; [reflexivity|]. cbn. auto.
Qed.
End Square.

Lemma fit_shape ys es dims pd ps : dims <> pd -> length ys = length es -> 0 < length ys -> fits 2 (length ys) -> fit (AV dims ys) (AV dims es) [AS one; AV pd ps] = CheckFail.
Proof.
  intros N L P Ft. unfold linfit, linfit_cache, linfit_check. cbn [arg_size]. set (n := length ys) in *.
  assert (N0 : (n =? 0) = false) by (apply Nat.eqb_neq; lia). assert (Ne : (length es =? n) = true) by (apply Nat.eqb_eq; symmetry; exact L). unfold same_dims. rewrite N0. cbn [orb forallb]. rewrite Ne. cbn [andb check obind ofold]. destruct (length ps =? n) eqn:Ep; [|reflexivity]. cbn [obind]. cbn [length]. rewrite (filled_ok zero 2 n Ft). cbn [obind make_cache arg_div].
  assert (Rp : rep 2 n (pix (Img 2 n (repeat zero (2 * n)))) (fun _ _ => zero)) by (split; [cbn [pix]; apply repeat_length|intros i j Hi Hj; cbn [pix]; apply nth_error_repeat; nia]).
  assert (Rv : repv n (map (fun e => fdiv one e) es) (fun m => fdiv one (nth m es zero))).
  { split; [rewrite map_length; symmetry; exact L|]. intros i Hi. rewrite nth_error_map, (nth_error_nth' es zero) by lia. reflexivity. }
  destruct (set_row_vec 2 n (Img 2 n (repeat zero (2 * n))) (fun _ _ => zero) eq_refl eq_refl Rp 0 _ _ dims ltac:(lia) Rv) as (d' & E & _). rewrite E. cbn [obind make_cache arg_div].
  destruct (list_eq_dec Nat.eq_dec pd dims) as [Q|_]; [congruence|]. reflexivity.
Qed.
Lemma psffit_shape (im err : img (option F)) (psf : img F) p0 p1 rest : wf im -> wf err -> (nr err = nr im /\ nc err = nc im) \/ (nr err = 1 /\ nc err = 1) ->
  (Z.of_nat (nr im) * Z.of_nat (nc im) < two64)%Z -> (Z.of_nat (nr psf) < 2 ^ 29 /\ Z.of_nat (nc psf) < 2 ^ 29 /\ - 2 ^ 62 < p0 < 2 ^ 62 /\ - 2 ^ 62 < p1 < 2 ^ 62)%Z ->
  ~ (nr psf = nc psf /\ Nat.Odd (nr psf)) -> pfit im err psf (p0 :: p1 :: rest) = CheckFail.
Proof.
  intros W We D S1 (B1 & B2 & P0 & P1) Sh. unfold psffit. destruct (error_map_ok im err W We D) as (em & Ee & Wm & R1 & R2 & Pm). rewrite Ee. cbn [obind position]. unfold region.
  set (hx := (Z.of_nat (nc psf) / 2)%Z). set (hy := (Z.of_nat (nr psf) / 2)%Z).
  assert (Hx : (0 <= hx < 2 ^ 28 /\ (Z.of_nat (nc psf) = 2 * hx \/ Z.of_nat (nc psf) = 2 * hx + 1))%Z) by (unfold hx; pose proof (Z.div_mod (Z.of_nat (nc psf)) 2 ltac:(lia)); pose proof (Z.mod_pos_bound (Z.of_nat (nc psf)) 2 ltac:(lia)); lia).
  assert (Hy : (0 <= hy < 2 ^ 28 /\ (Z.of_nat (nr psf) = 2 * hy \/ Z.of_nat (nr psf) = 2 * hy + 1))%Z) by (unfold hy; pose proof (Z.div_mod (Z.of_nat (nr psf)) 2 ltac:(lia)); pose proof (Z.mod_pos_bound (Z.of_nat (nr psf)) 2 ltac:(lia)); lia).
  clearbody hx hy. rewrite !signed64_id by (unfold two63; lia). cbn [obind].
  assert (Bd : ((p0 + hx - (p0 - hx) + 1) * (p1 + hy - (p1 - hy) + 1) <= 1152921504606846975)%Z) by (replace (p0 + hx - (p0 - hx) + 1)%Z with (2 * hx + 1)%Z by lia; replace (p1 + hy - (p1 - hy) + 1)%Z with (2 * hy + 1)%Z by lia; clear - Hx Hy; nia).
  destruct (subregion_spec im (p0 - hx) (p1 - hy) (p0 + hx) (p1 + hy) (Some zero) W S1 ltac:(lia) ltac:(lia) ltac:(unfold two63; lia) ltac:(unfold two63; lia) Bd) as (ic & Ei & Si). rewrite Ei. cbn [obind].
  destruct (subregion_spec em (p0 - hx) (p1 - hy) (p0 + hx) (p1 + hy) (Some max_error) Wm ltac:(rewrite R1, R2; exact S1) ltac:(lia) ltac:(lia) ltac:(unfold two63; lia) ltac:(unfold two63; lia) Bd) as (ec & Ec & Sc). rewrite Ec. cbn [obind].
  destruct Si as (I1 & I2 & I3 & _). destruct Sc as (C1 & C2 & C3 & _). unfold wf in I3, C3.
  set (cells := map (fun p => both zero max_error (fst p) (snd p)) (combine (pix ic) (pix ec))).
  assert (Lc : length cells = nr ic * nc ic) by (unfold cells; rewrite map_length, combine_length, I3, C3, C1, C2, I1, I2; apply Nat.min_id).
  rewrite fit_shape; [reflexivity| | | |].
  - intros E. injection E as E1 E2. apply Sh. rewrite I1 in E1. rewrite I2 in E2. split; [lia|]. exists (Z.to_nat hx). lia.
  - rewrite !map_length. reflexivity.
  - rewrite map_length, Lc, I1, I2. replace (p0 + hx - (p0 - hx) + 1)%Z with (2 * hx + 1)%Z by lia. replace (p1 + hy - (p1 - hy) + 1)%Z with (2 * hy + 1)%Z by lia. apply Nat.mul_pos_pos; lia.
  - rewrite map_length, Lc, I1, I2. unfold fits. rewrite Nat2Z.inj_mul, !Z2Nat.id by lia. replace (p0 + hx - (p0 - hx) + 1)%Z with (2 * hx + 1)%Z by lia. replace (p1 + hy - (p1 - hy) + 1)%Z with (2 * hy + 1)%Z by lia. unfold two64. clear - Hx Hy. nia.
Qed.
End Fit.
