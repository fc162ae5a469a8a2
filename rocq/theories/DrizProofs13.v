(* Proofs about the whole image: in terms of the specification, and translations. *)
From Coq Require Import QArith Qabs Qround Lqa Setoid Morphisms Qminmax Lia.
From Verif Require Import Base ImageModel ImageSpec ImageProofs ImageProofs2 ImageProofs3 GenModel.
From Verif Require Import DrizModel DrizSpec DrizSpec2 DrizProofs DrizProofs2 DrizProofs3 DrizProofs4 DrizProofs5 DrizProofs6 DrizProofs7 DrizProofs8 DrizProofs9 DrizProofs10 DrizProofs11 DrizProofs12.
Local Open Scope Q_scope.

Lemma drop_proj pr s2d : drop (pixfrac pr) (dest_pixfrac pr) s2d = proj_of pr s2d.
Proof. reflexivity. Qed.
Lemma pixels_in h w p : In p (pixels h w) <-> (fst p < h /\ snd p < w)%nat.
Proof. destruct p as [y x]. unfold pixels. rewrite in_prod_iff, !in_seq. cbn [fst snd]. lia. Qed.
Lemma value_val v p : wf v -> In p (pixels (nr v) (nc v)) -> value v p = val v p.
Proof.
  intros W I. apply pixels_in in I. destruct p as [y x]. cbn [fst snd] in I. unfold value, val. cbn [fst snd].
  destruct (pget_some v y x W) as (a & E & P); [lia|lia|]. rewrite E, P. reflexivity.
Qed.
Lemma outcome_regridded o pr s2d v h w res wei W : wf v ->
  outcome_is o pr s2d v h w (res, wei) W ->
  regridded v (inject_Z o) (pixfrac pr) (drop (pixfrac pr) (dest_pixfrac pr) s2d) h w W res wei.
Proof.
  intros Wf ((G1 & G2 & G3 & G4 & G5 & G6) & Sp & Co). cbn [fst snd] in *.
  split; [repeat split; assumption|]. split; [repeat split; assumption|]. split; [exact Sp|].
  intros x y O. destruct (Co x y O) as (r & a & k & R & K & C & Ra). exists r, a, k. split; [exact R|]. split; [exact K|].
  split; [|exact Ra]. assert (E : parts v (inject_Z o) (pixfrac pr) (drop (pixfrac pr) (dest_pixfrac pr) s2d) W x y =
    contribs v o (proj_of pr s2d) (pixfrac pr * pixfrac pr) (pixels (nr v) (nc v)) W x y); [|rewrite E; exact C].
  unfold parts, contribs. apply map_ext_in. intros p I. rewrite (value_val v p Wf I). reflexivity.
Qed.

Lemma zpixels_dests h w : zpixels h w = dests h w.
Proof.
  unfold zpixels, dests, ints, zrange. f_equal; apply map_ext_in || idtac; f_equal; f_equal; lia.
Qed.
Lemma zpixels_in h w y x : In (y, x) (zpixels h w) <-> on_image h w x y.
Proof. rewrite zpixels_dests. apply dests_in. Qed.

(* --- flux --- *)
Lemma qsum_nonneg l : Forall (fun x => 0 <= x) l -> 0 <= qsum l.
Proof. intros F. unfold qsum. induction F as [|x l H F IH]; cbn [fold_right]; lra. Qed.
Lemma qsum_zero l : Forall (fun x => 0 <= x) l -> qsum l == 0 -> Forall (fun x => x == 0) l.
Proof.
  intros F. induction F as [|x l H F IH]; intros E; [constructor|]. assert (N := qsum_nonneg l F).
  change (qsum (x :: l)) with (x + qsum l) in E. constructor; [lra|]. apply IH. lra.
Qed.
Section Flux.
Variables (v : img (option Q)) (o : Z) (f : Q) (D : nat * nat -> list point) (h w : nat).
Variables (W : nat * nat -> Z * Z -> Q) (res : img (option Q)) (wei : img Q).
Hypothesis o_unit : (o = 1 \/ o = -1)%Z.
Hypothesis Cv : forall p, In p (pixels (nr v) (nc v)) -> strictly_convex (inject_Z o) (D p).
Hypothesis R : regridded v (inject_Z o) f D h w W res wei.

Lemma W_nonneg p x y : In p (pixels (nr v) (nc v)) -> on_image h w x y -> 0 <= W p (y, x).
Proof.
  intros I O. destruct R as (_ & _ & Sp & _). eapply (spread_nonneg (inject_Z o) (D p)); [apply strict_quad_pos, Cv, I|apply Sp, I|exact O].
Qed.
Lemma parts_nonneg b e wt x y : on_image h w x y -> In (b, e, wt) (parts v (inject_Z o) f D W x y) -> 0 <= wt.
Proof.
  intros O I. unfold parts in I. apply in_map_iff in I. destruct I as (p & E & I). injection E as _ _ <-. apply W_nonneg; assumption.
Qed.
Hypothesis Fi : forall p, In p (pixels (nr v) (nc v)) -> value v p <> None.
Lemma pixel_flux x y : on_image h w x y ->
  weighted res wei (y, x) == qsum (map (fun p => fin (value v p) * (f * f / quad_area (inject_Z o) (D p)) * W p (y, x)) (pixels (nr v) (nc v))).
Proof.
  intros O. destruct R as (_ & _ & Sp & Co). destruct (Co x y O) as (r & a & k & P1 & P2 & (K & C) & Ra).
  unfold weighted. cbn [fst snd]. rewrite P1, P2.
  assert (Sh : qsum (map share (parts v (inject_Z o) f D W x y)) ==
     qsum (map (fun p => fin (value v p) * (f * f / quad_area (inject_Z o) (D p)) * W p (y, x)) (pixels (nr v) (nc v)))).
  { unfold parts. rewrite map_map. apply qsum_ext. intros p I. cbn [share]. destruct (value v p) eqn:E; [reflexivity|]. exfalso. apply (Fi p I E). }
  destruct r as [q|].
  - destruct C as [_ C]. destruct a as [a|].
    + destruct Ra as [_ Ra]. rewrite Ra, C. exact Sh.
    + cbn in Ra. rewrite Ra in K. symmetry in K. apply qsum_zero in K.
      * assert (Z : qsum (map share (parts v (inject_Z o) f D W x y)) == qsum (map (fun _ => 0) (parts v (inject_Z o) f D W x y))).
        { apply qsum_ext. intros [[b e] wt] I. rewrite Forall_forall in K. assert (Z := K wt (in_map weight _ _ I)).
          cbn [share]. destruct b; [rewrite Z; ring|reflexivity]. }
        rewrite <- Sh, Z. symmetry. clear. induction (parts v (inject_Z o) f D W x y) as [|c l IH]; [reflexivity|].
        cbn [map]. change (qsum (0 :: map (fun _ => 0) l)) with (0 + qsum (map (fun _ => 0) l)). lra.
      * apply Forall_forall. intros z Iz. apply in_map_iff in Iz. destruct Iz as ([[b e] wt] & <- & I). cbn [weight snd].
        apply (parts_nonneg b e wt x y O I).
  - destruct C as (e & wt & I). unfold parts in I. apply in_map_iff in I. destruct I as (p & E & I). injection E as E _ _.
    exfalso. apply (Fi p I E).
Qed.
Lemma image_flux : qsum (map (weighted res wei) (zpixels h w)) ==
  qsum (map (fun p => fin (value v p) * (f * f / quad_area (inject_Z o) (D p)) * qsum (map (W p) (zpixels h w))) (pixels (nr v) (nc v))).
Proof.
  rewrite (qsum_ext _ (fun yx => qsum (map (fun p => fin (value v p) * (f * f / quad_area (inject_Z o) (D p)) * W p yx) (pixels (nr v) (nc v))))).
  - rewrite qsum_swap. apply qsum_ext. intros p _. rewrite <- (qsum_scale (fin (value v p) * (f * f / quad_area (inject_Z o) (D p))) (map (W p) (zpixels h w))), map_map.
    reflexivity.
  - intros [y x] I. apply pixel_flux. apply zpixels_in, I.
Qed.
Hypothesis Ig : forall p, In p (pixels (nr v) (nc v)) -> in_grid h w (D p).
Hypothesis Po : forall p, In p (pixels (nr v) (nc v)) -> 0 <= fin (value v p).
Lemma flux_bounds :
  qsum (map (weighted res wei) (zpixels h w)) <= qsum (map (fun p => fin (value v p) * (f * f)) (pixels (nr v) (nc v))) /\
  exists T, (forall p, In p (pixels (nr v) (nc v)) -> area (deeper tol (inject_Z o) (D p)) (- (1#2)) (inject_Z (Z.of_nat h) - (1#2)) (T p)) /\
    qsum (map (fun p => fin (value v p) * (f * f) * (T p / quad_area (inject_Z o) (D p))) (pixels (nr v) (nc v))) <= qsum (map (weighted res wei) (zpixels h w)).
Proof.
  assert (Tot : forall p, In p (pixels (nr v) (nc v)) -> qsum (map (W p) (zpixels h w)) <= quad_area (inject_Z o) (D p) /\
     exists T, area (deeper tol (inject_Z o) (D p)) (- (1#2)) (inject_Z (Z.of_nat h) - (1#2)) T /\ T <= qsum (map (W p) (zpixels h w))).
  { intros p I. rewrite zpixels_dests. apply grid_total; [exact o_unit|apply Cv, I|apply Ig, I|]. destruct R as (_ & _ & Sp & _). apply Sp, I. }
  assert (E : forall p t, In p (pixels (nr v) (nc v)) -> 0 <= t ->
     forall t', t <= t' -> fin (value v p) * (f * f) * (t / quad_area (inject_Z o) (D p)) <= fin (value v p) * (f * f / quad_area (inject_Z o) (D p)) * t').
  { intros p t I T0 t' T1. assert (Q0 := strict_quad_pos o (D p) (Cv p I)).
    assert (Eq : fin (value v p) * (f * f / quad_area (inject_Z o) (D p)) * t' ==
                 fin (value v p) * (f * f) * (t / quad_area (inject_Z o) (D p)) + fin (value v p) * (f * f) * ((t' - t) / quad_area (inject_Z o) (D p))) by (field; lra).
    rewrite Eq. assert (0 <= fin (value v p) * (f * f) * ((t' - t) / quad_area (inject_Z o) (D p))); [|lra].
    apply prod_nn; [apply prod_nn; [apply Po, I|]|apply div_nonneg; lra].
    destruct (Qlt_le_dec f 0) as [Lf|Lf]; [setoid_replace (f * f) with ((- f) * (- f)) by ring|]; apply prod_nn; lra. }
  rewrite image_flux. split.
  - apply qsum_le. intros p I. destruct (Tot p I) as [T1 _]. assert (Q0 := strict_quad_pos o (D p) (Cv p I)).
    assert (N : 0 <= qsum (map (W p) (zpixels h w))).
    { apply qsum_nonneg, Forall_forall. intros z Iz. apply in_map_iff in Iz. destruct Iz as ([y x] & <- & Iz). apply zpixels_in in Iz. apply W_nonneg; assumption. }
    assert (Eq : fin (value v p) * (f * f) == fin (value v p) * (f * f / quad_area (inject_Z o) (D p)) * quad_area (inject_Z o) (D p)) by (field; lra).
    rewrite Eq. assert (Nn : 0 <= fin (value v p) * (f * f / quad_area (inject_Z o) (D p))).
    { apply prod_nn; [apply Po, I|]. apply div_nonneg; [|exact Q0].
      destruct (Qlt_le_dec f 0) as [Lf|Lf]; [setoid_replace (f * f) with ((- f) * (- f)) by ring|]; apply prod_nn; lra. }
    pose proof (prod_nn _ (quad_area (inject_Z o) (D p) - qsum (map (W p) (zpixels h w))) Nn ltac:(lra)). lra.
  - destruct (choose nn_dec (fun p T => area (deeper tol (inject_Z o) (D p)) (- (1#2)) (inject_Z (Z.of_nat h) - (1#2)) T /\ T <= qsum (map (W p) (zpixels h w))) (pixels (nr v) (nc v))) as (T & HT).
    { intros p I. apply (Tot p I). }
    exists T. split; [intros p I; apply (HT p I)|]. rewrite image_flux. apply qsum_le. intros p I. destruct (HT p I) as [A L].
    apply E; [exact I|eapply area_nonneg, A|exact L].
Qed.
End Flux.

(* --- translations by whole pixels --- *)
Lemma copy_back {A} (src : img A) (def : A) (dh dw : nat) r0 r1 :
  wf src -> let ov := overlap dh dw r0 r1 (r0 + Z.of_nat (nr src) - 1) (r1 + Z.of_nat (nc src) - 1) in
  exists d, copy_ids (pix src) (map (fun p => (fst p - r0) * Z.of_nat (nc src) + (snd p - r1))%Z ov)
      (map (fun p => fst p * Z.of_nat dw + snd p)%Z ov) (repeat def (dh * dw)) = Ok d /\
    shows (Img dh dw d) dh dw (fun y x => px_or def src (y - r0) (x - r1))%Z.
Proof.
  intros W ov. unfold copy_ids. rewrite combine_map, ofold_map.
  destruct (write_all (fun p => Z.to_nat (fst p * Z.of_nat dw + snd p))
      (fun p => nth (Z.to_nat ((fst p - r0) * Z.of_nat (nc src) + (snd p - r1))) (pix src) def) ov (repeat def (dh * dw))) as (d & E & L & O & S).
  { intros [y x] H. apply overlap_in in H. cbn [fst snd]. rewrite repeat_length.
    pose proof (zpos_bound (Z.of_nat dh) (Z.of_nat dw) y x). lia. }
  exists d. split.
  { rewrite <- E. apply (ofold_ext _ _ (fun _ => True)); auto. intros s [y x] _ H. apply overlap_in in H.
    cbn [fst snd]. unfold oget.
    destruct (nth_error (pix src) (Z.to_nat ((y - r0) * Z.of_nat (nc src) + (x - r1)))) as [a|] eqn:Ea.
    - cbn [obind]. f_equal. symmetry. apply nth_error_nth. exact Ea.
    - apply nth_error_None in Ea. unfold wf in W. rewrite W in Ea.
      pose proof (zpos_bound (Z.of_nat (nr src)) (Z.of_nat (nc src)) (y - r0) (x - r1)). lia. }
  rewrite repeat_length in L.
  apply shows_nat; cbn [nr nc pix]; [reflexivity|reflexivity|exact L|].
  intros y x Hy Hx. unfold px_or.
  assert (EQP : forall y' x', In (y', x') ov -> Z.to_nat (y' * Z.of_nat dw + x') = (y * dw + x)%nat -> (y' = Z.of_nat y /\ x' = Z.of_nat x)%Z).
  { intros y' x' H Eq. apply overlap_in in H. rewrite zpos_nat in Eq by lia. apply pos_inj in Eq; lia. }
  destruct (In_dec prod_eq_dec' (Z.of_nat y, Z.of_nat x) ov) as [H|H].
  - pose proof (S _ H) as S'. cbn [fst snd] in S'. rewrite zpos_nat in S' by lia. rewrite !Nat2Z.id in S'. rewrite S'.
    + apply overlap_in in H. rewrite px_in_Z by lia. rewrite zpos_nat by lia.
      destruct (total_px src W (Z.to_nat (Z.of_nat y - r0)) (Z.to_nat (Z.of_nat x - r1))) as (a & Ea); [lia|lia|].
      rewrite Ea. f_equal. apply nth_error_nth. exact Ea.
    + intros [y' x'] Hq Eq. cbn [fst snd] in *. destruct (EQP y' x' Hq Eq) as (-> & ->). reflexivity.
  - rewrite px_out.
    + rewrite O. { apply nth_error_repeat. apply pos_lt; assumption. }
      intros [y' x'] Hq Eq. cbn [fst snd] in Eq. destruct (EQP y' x' Hq Eq) as (-> & ->). contradiction.
    + intro C. apply H. apply overlap_in. lia.
Qed.
Lemma ones_back (dh dw : nat) (ov : list (Z * Z)) : (forall y x, In (y, x) ov -> on_image dh dw x y) ->
  exists d, ofold (fun d i => oset d (Z.to_nat i) 1) (map (fun p => fst p * Z.of_nat dw + snd p)%Z ov) (repeat 0 (dh * dw)) = Ok d /\
    shows (Img dh dw d) dh dw (fun y x => Some (if in_dec prod_eq_dec' (y, x) ov then 1 else 0)).
Proof.
  intros Hov. rewrite ofold_map.
  destruct (write_all (fun p => Z.to_nat (fst p * Z.of_nat dw + snd p)) (fun _ => 1) ov (repeat 0 (dh * dw))) as (d & E & L & O & S).
  { intros [y x] H. apply Hov in H. unfold on_image in H. cbn [fst snd]. rewrite repeat_length.
    pose proof (zpos_bound (Z.of_nat dh) (Z.of_nat dw) y x). lia. }
  exists d. split; [exact E|]. rewrite repeat_length in L.
  apply shows_nat; cbn [nr nc pix]; [reflexivity|reflexivity|exact L|].
  intros y x Hy Hx.
  destruct (in_dec prod_eq_dec' (Z.of_nat y, Z.of_nat x) ov) as [H|H].
  - pose proof (S _ H) as S'. cbn [fst snd] in S'. rewrite zpos_nat in S' by lia. rewrite !Nat2Z.id in S'. apply S'. reflexivity.
  - rewrite O. { apply nth_error_repeat. apply pos_lt; assumption. }
    intros [y' x'] Hq Eq. cbn [fst snd] in Eq. assert (Hq' := Hov _ _ Hq). unfold on_image in Hq'.
    rewrite zpos_nat in Eq by lia. apply pos_inj in Eq; [|lia|lia]. apply H.
    replace (Z.of_nat y) with y' by lia. replace (Z.of_nat x) with x' by lia. exact Hq.
Qed.
