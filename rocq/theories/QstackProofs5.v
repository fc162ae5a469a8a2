(* Further lemmas: overlays, positions half way between two pixels. *)
From Coq Require Import QArith Qround Qabs Lqa.
From Verif Require Import Base GenModel QstackModel QstackSpec QstackProofs QstackProofs2 QstackProofs3.
Local Open Scope nat_scope.

Lemma nth_error_combine2 {A B} (l : list A) (l' : list B) p :
  nth_error (combine l l') p = match nth_error l p, nth_error l' p with Some a, Some b => Some (a, b) | _, _ => None end.
Proof.
  revert l' p. induction l as [|a l IH]; intros [|b l'] [|p]; cbn; try reflexivity.
  - destruct (nth_error l p); reflexivity.
  - apply IH.
Qed.
Lemma first_good_none {A} (a : option A) : first_good a None = a.
Proof. destruct a; reflexivity. Qed.
Lemma overlay_nth {A} (l : list (list (option A))) m p d : Forall (fun c => length c = m) l -> l <> [] -> p < m ->
  nth_error (overlay l) p = Some (first_finite (map (fun c => nth p c d) l)).
Proof.
  intros F N P. induction F as [|c l Hc F IH]; [contradiction|]. destruct l as [|e l].
  - cbn [overlay map first_finite fold_right]. rewrite first_good_none. apply nth_error_nth'. lia.
  - change (overlay (c :: e :: l)) with (map (fun '(a, b) => first_good a b) (combine c (overlay (e :: l)))).
    rewrite nth_error_map, nth_error_combine2. rewrite IH by discriminate.
    rewrite (nth_error_nth' c d) by lia. reflexivity.
Qed.

Lemma found_In {A} h kn (imgs : list (image A)) nsrc i : i < nsrc ->
  (In i (map snd (found_pairs h kn imgs nsrc)) <-> exists im, In im imgs /\ sourcecut h kn im i <> None).
Proof.
  intros I. assert (EP : pairs h kn imgs nsrc (length imgs) 0 = found_pairs h kn imgs nsrc) by (unfold pairs; cbn; apply app_nil_r).
  rewrite <- EP.
  assert (G : In i (map snd (pairs h kn imgs nsrc (length imgs) 0)) <-> some (cuts h kn imgs (length imgs) i) = true).
  { rewrite in_map_iff. split.
    - intros ([k' i'] & <- & H). apply (pairs_In h kn imgs nsrc [] [] eq_refl) in H. destruct H as (F & H). cbn [snd]. apply (some_first h kn imgs [] [] eq_refl); [lia|].
      exists k'. split; [lia|exact F].
    - intros H. apply (some_first h kn imgs [] [] eq_refl) in H; [|lia]. destruct H as (k' & L & F). exists (k', i). split; [reflexivity|].
      apply (pairs_In h kn imgs nsrc [] [] eq_refl). split; [exact F|]. left. auto. }
  rewrite G. unfold cuts. rewrite firstn_all, <- some_exists, existsb_exists. split.
  - intros (im & Him & E). exists im. split; [exact Him|]. destruct (sourcecut h kn im i); [discriminate|discriminate].
  - intros (im & Him & E). exists im. split; [exact Him|]. destruct (sourcecut h kn im i); [reflexivity|congruence].
Qed.
Lemma found_NoDup {A} h kn (imgs : list (image A)) nsrc : NoDup (map snd (found_pairs h kn imgs nsrc)).
Proof.
  assert (EP : pairs h kn imgs nsrc (length imgs) 0 = found_pairs h kn imgs nsrc) by (unfold pairs; cbn; apply app_nil_r).
  rewrite <- EP. apply (pairs_NoDup h kn imgs nsrc [] [] eq_refl).
Qed.

Lemma half_low h x k : (x == inject_Z k + (1 # 2))%Q -> (x < inject_Z (Z.of_nat h))%Q ->
  qround (x - inject_Z (Z.of_nat h)) = (k - Z.of_nat h)%Z.
Proof.
  intros E L. assert (D : (inject_Z (k - Z.of_nat h) == inject_Z k - inject_Z (Z.of_nat h))%Q).
  { unfold Z.sub. rewrite inject_Z_plus, inject_Z_opp. reflexivity. }
  apply qround_uniq; rewrite ?D; [split; lra|intros; lra|intros; lra].
Qed.
Lemma half_high h x k : (x == inject_Z k + (1 # 2))%Q -> (- inject_Z (Z.of_nat h) < x)%Q ->
  qround (x + inject_Z (Z.of_nat h)) = (k + Z.of_nat h + 1)%Z.
Proof.
  intros E L. assert (D : (inject_Z (k + Z.of_nat h + 1) == inject_Z k + inject_Z (Z.of_nat h) + 1)%Q).
  { rewrite !inject_Z_plus. reflexivity. }
  apply qround_uniq; rewrite ?D; [split; lra|intros; lra|intros; lra].
Qed.
Lemma half_aborts {A} h (im : image A) i x y k : nth_error (px im) i = Some x -> nth_error (py im) i = Some y ->
  (x == inject_Z k + (1 # 2))%Q -> (- inject_Z (Z.of_nat h) < x < inject_Z (Z.of_nat h))%Q -> moderate h x ->
  (1 <= height im)%Z -> regular h y -> moderate h y -> (k + Z.of_nat h + 1 <= width im)%Z ->
  touches h im (qround x) (qround y) = true ->
  cutout h im i = CheckFail.
Proof.
  intros Hx Hy E [L1 L2] Mx Hh Ry My W T. unfold cutout, oget. rewrite Hx, Hy. cbn [obind].
  assert (Hq : (0 <= inject_Z (Z.of_nat h))%Q) by (change 0%Q with (inject_Z 0); rewrite <- Zle_Qle; lia).
  unfold Qminus. rewrite (moderate_range h x), (moderate_range h y), (moderate_range h x), (moderate_range h y) by (assumption || (split; lra)).
  cbn [obind]. fold (Qminus x (inject_Z (Z.of_nat h))). fold (Qminus y (inject_Z (Z.of_nat h))).
  rewrite (half_low h x k E L2), (half_high h x k E L1), !regular_low, !regular_high by assumption.
  assert (K1 : (0 <= k + Z.of_nat h)%Z).
  { assert (D : (inject_Z (k + Z.of_nat h) == inject_Z k + inject_Z (Z.of_nat h))%Q) by (rewrite inject_Z_plus; reflexivity).
    enough ((-1 < k + Z.of_nat h)%Z) by lia. apply inject_lt. rewrite D. change (inject_Z (-1)) with (-1)%Q. lra. }
  assert (K2 : (k - Z.of_nat h < 0)%Z).
  { apply inject_lt. unfold Z.sub. rewrite inject_Z_plus, inject_Z_opp. change (inject_Z 0) with 0%Q. lra. }
  set (cy := qround y) in *. unfold touches in T.
  assert (T1 : ((k + Z.of_nat h + 1 <? 1) || (width im <=? k - Z.of_nat h) || (cy + Z.of_nat h <? 1) || (height im <=? cy - Z.of_nat h))%Z = false) by lia.
  rewrite T1.
  assert (T2 : ((k - Z.of_nat h <? 1) || (width im <=? k + Z.of_nat h + 1) || (cy - Z.of_nat h <? 1) || (height im <=? cy + Z.of_nat h))%Z = true) by lia.
  rewrite T2. unfold read_subset.
  set (bx0 := Z.max 1 (k - Z.of_nat h)). set (by0 := Z.max 1 (cy - Z.of_nat h)).
  set (bx1 := Z.min (width im) (k + Z.of_nat h + 1)). set (by1 := Z.min (height im) (cy + Z.of_nat h)).
  assert (T3 : ((1 <=? bx0) && (bx0 <=? bx1) && (bx1 <=? width im) && (1 <=? by0) && (by0 <=? by1) && (by1 <=? height im))%Z = true).
  { unfold bx0, by0, bx1, by1. lia. }
  rewrite T3. cbn [obind]. unfold paste.
  assert (T4 : ((by1 - (cy - Z.of_nat h) <? Z.of_nat (2 * h + 1)) && (by0 - (cy - Z.of_nat h) <? Z.of_nat (2 * h + 1)) &&
     (bx1 - (k - Z.of_nat h) <? Z.of_nat (2 * h + 1)) && (bx0 - (k - Z.of_nat h) <? Z.of_nat (2 * h + 1)))%Z = false).
  { unfold bx1. lia. }
  rewrite T4. reflexivity.
Qed.
Lemma integer_regular h k : regular h (inject_Z k).
Proof.
  intros (j & E). exfalso. assert (D : (inject_Z (2 * k) == inject_Z (2 * j + 1))%Q).
  { rewrite inject_Z_plus, !inject_Z_mult. change (inject_Z 2) with 2%Q. change (inject_Z 1) with 1%Q. lra. }
  apply (proj1 (inject_Z_injective _ _)) in D. lia.
Qed.
