(* The version with weights. *)
From Coq Require Import QArith Qround Qabs.
From Verif Require Import Base GenModel QstackModel QstackSpec QstackProofs QstackProofs2 QstackProofs3.
Local Open Scope nat_scope.

Section Weights.
Context {A : Type}.
Local Notation pixel := (option A).

Lemma both_bad (w v : list pixel) : length w = length v ->
  existsb (fun '(a, b) => bad a || bad b) (combine w v) =
  negb (forallb (fun p => negb (bad p)) w && forallb (fun p => negb (bad p)) v).
Proof.
  revert v. induction w as [|a w IH]; intros [|b v] L; try discriminate; [reflexivity|]. cbn. rewrite IH by (cbn in L; lia).
  destruct (bad a), (bad b); cbn; try reflexivity. now rewrite andb_false_r.
Qed.
Lemma into_all (w : list pixel) m : length w = m -> into (repeat None m) w = Ok w.
Proof.
  intros <-. unfold into. rewrite repeat_length, Nat.leb_refl, skipn_all2, app_nil_r by (rewrite repeat_length; lia). reflexivity.
Qed.

Variables (h : nat) (kn offsets sections : bool) (im : image A) (wpix : Z -> Z -> pixel) (nsrc : nat).
Hypothesis good : good_image h nsrc im.

Definition wafter (cube wcube : list (list pixel)) (ids : list nat) (l : list nat) : wstate :=
  (cube ++ flat_map (fun i => map fst (opt_list (pair_of_cuts h kn im wpix i))) l,
   wcube ++ flat_map (fun i => map snd (opt_list (pair_of_cuts h kn im wpix i))) l,
   ids ++ filter (fun i => isSome (pair_of_cuts h kn im wpix i)) l,
   (if offsets then flat_map (fun i => offset_x [im] 0 i) (filter (fun i => isSome (pair_of_cuts h kn im wpix i)) l) else []),
   (if offsets then flat_map (fun i => offset_y [im] 0 i) (filter (fun i => isSome (pair_of_cuts h kn im wpix i)) l) else []),
   (if sections then map (fun _ => 0) (filter (fun i => isSome (pair_of_cuts h kn im wpix i)) l) else [])).

Lemma wstep cube wcube ids l i : i < nsrc ->
  wstack_one h kn offsets sections im wpix (wafter cube wcube ids l) i = Ok (wafter cube wcube ids (l ++ [i])).
Proof.
  intros I. destruct good as (W & H & Lx & Ly & Fx & Fy).
  assert (Ex : exists x, nth_error (px im) i = Some x).
  { destruct (nth_error (px im) i) eqn:Ex; [eauto|]. apply nth_error_None in Ex. lia. }
  assert (Ey : exists y, nth_error (py im) i = Some y).
  { destruct (nth_error (py im) i) eqn:Ey; [eauto|]. apply nth_error_None in Ey. lia. }
  destruct Ex as [x Ex], Ey as [y Ey].
  pose proof (proj1 (Forall_forall _ _) Fx x (nth_error_In _ _ Ex)) as [Rx Mx].
  pose proof (proj1 (Forall_forall _ _) Fy y (nth_error_In _ _ Ey)) as [Ry My].
  assert (Hh : (0 <= inject_Z (Z.of_nat h))%Q) by (change 0%Q with (inject_Z 0); rewrite <- Zle_Qle; lia).
  assert (Px : pair_of_cuts h kn im wpix i =
    if inside h im (qround x) (qround y) && (kn || (forallb (fun p => negb (bad p)) (window h im (qround x) (qround y)) &&
        forallb (fun p => negb (bad p)) (window h (weight_image im wpix) (qround x) (qround y))))
    then Some (window h im (qround x) (qround y), window h (weight_image im wpix) (qround x) (qround y)) else None).
  { unfold pair_of_cuts. rewrite Ex, Ey. reflexivity. }
  assert (Same : pair_of_cuts h kn im wpix i = None -> wafter cube wcube ids (l ++ [i]) = wafter cube wcube ids l).
  { intros Z. unfold wafter. rewrite !flat_map_app, filter_app. cbn [flat_map filter]. rewrite Z. cbn. rewrite !app_nil_r. reflexivity. }
  unfold wstack_one, wafter at 1. unfold oget. rewrite Ex, Ey. cbn [obind].
  unfold Qminus. rewrite (moderate_range h x), (moderate_range h y), (moderate_range h x), (moderate_range h y) by (assumption || (split; Lqa.lra)).
  cbn [obind]. fold (Qminus x (inject_Z (Z.of_nat h))). fold (Qminus y (inject_Z (Z.of_nat h))).
  rewrite !regular_low, !regular_high by assumption.
  set (cx := qround x) in *. set (cy := qround y) in *.
  assert (T : ((cx - Z.of_nat h <? 1) || (width im <=? cx + Z.of_nat h) || (cy - Z.of_nat h <? 1) || (height im <=? cy + Z.of_nat h))%Z =
              negb (inside h im cx cy)) by (unfold inside; lia).
  rewrite T. destruct (inside h im cx cy) eqn:Hi; cbn [negb andb] in *; [|rewrite Same by exact Px; reflexivity].
  fold (weight_image im wpix). unfold inside in Hi.
  rewrite (window_inside h im), (window_inside h (weight_image im wpix)) by (cbn [width height weight_image]; lia).
  cbn [obind]. rewrite into_all by apply window_length. cbn [obind]. rewrite into_all by apply window_length. cbn [obind].
  rewrite both_bad by (now rewrite !window_length). set (ok := forallb _ _ && forallb _ _) in *.
  replace (negb kn && negb ok) with (negb (kn || ok)) by apply negb_orb.
  destruct (kn || ok); cbn [negb]; [|rewrite Same by exact Px; reflexivity].
  unfold wafter. rewrite !flat_map_app, filter_app. cbn [flat_map filter]. rewrite Px. cbn [opt_list map isSome fst snd app].
  rewrite !flat_map_app, !map_app. cbn [flat_map map app].
  assert (Ox : offset_x [im] 0 i = [offset x]) by (unfold offset_x; cbn; rewrite Ex; reflexivity).
  assert (Oy : offset_y [im] 0 i = [offset y]) by (unfold offset_y; cbn; rewrite Ey; reflexivity).
  rewrite Ox, Oy, !app_nil_r, <- !app_assoc. destruct offsets, sections; reflexivity.
Qed.
Lemma weights_ok cube wcube ids :
  qstack_weights h kn offsets sections im wpix nsrc cube wcube ids = Ok (wafter cube wcube ids (seq 0 nsrc)).
Proof.
  unfold qstack_weights. assert (S0 : (cube, wcube, ids, @nil Q, @nil Q, @nil nat) = wafter cube wcube ids (seq 0 0)).
  { unfold wafter. cbn. rewrite !app_nil_r. destruct offsets, sections; reflexivity. }
  rewrite S0.
  enough (G : forall m j, j + m = nsrc -> ofold (wstack_one h kn offsets sections im wpix) (seq j m) (wafter cube wcube ids (seq 0 j)) =
    Ok (wafter cube wcube ids (seq 0 nsrc))) by (apply G; lia).
  induction m as [|m IH]; intros j H; cbn [seq ofold].
  - do 2 f_equal. f_equal. lia.
  - rewrite wstep by lia. cbn [obind]. rewrite <- seq_S. apply IH. lia.
Qed.
End Weights.
