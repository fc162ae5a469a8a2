(* The cutout of one source. *)
From Coq Require Import QArith Qround Qabs FinFun.
From Verif Require Import Base GenModel QstackModel QstackSpec QstackProofs.
Local Open Scope Z_scope.

Lemma flat_map_prod {A B C} (f : A -> B -> C) ys xs :
  flat_map (fun y => map (fun x => f y x) xs) ys = map (fun '(y, x) => f y x) (list_prod ys xs).
Proof. induction ys as [|y ys IH]; cbn; [reflexivity|]. rewrite map_app, map_map, IH. reflexivity. Qed.
Lemma combine_map2 {A B C} (f : A -> B) (g : A -> C) l : combine (map f l) (map g l) = map (fun e => (f e, g e)) l.
Proof. induction l; cbn; congruence. Qed.
Lemma zrange_length a b : length (zrange a b) = Z.to_nat (b - a + 1).
Proof. unfold zrange. now rewrite map_length, seq_length. Qed.
Lemma zrange_shift a b k : zrange (a - k) (b - k) = map (fun y => y - k) (zrange a b).
Proof.
  unfold zrange. replace (b - k - (a - k) + 1) with (b - a + 1) by lia. rewrite map_map. apply map_ext. intros. lia.
Qed.
Lemma zrange_In a b k : In k (zrange a b) <-> a <= k <= b.
Proof.
  unfold zrange. rewrite in_map_iff. setoid_rewrite in_seq. split.
  - intros (j & <- & H). lia.
  - intros H. exists (Z.to_nat (k - a)). lia.
Qed.
Lemma zrange_NoDup a b : NoDup (zrange a b).
Proof. unfold zrange. apply Injective_map_NoDup; [intros i j; lia|apply seq_NoDup]. Qed.
Lemma span_zrange h c : span h c = zrange (c - Z.of_nat h) (c + Z.of_nat h).
Proof. unfold span, zrange. f_equal. f_equal. lia. Qed.
Lemma nth_error_span h c k : (k < 2 * h + 1)%nat -> nth_error (span h c) k = Some (c - Z.of_nat h + Z.of_nat k).
Proof. intros H. unfold span. rewrite nth_error_map, (nth_error_nth' _ 0%nat), seq_nth by (rewrite ?seq_length; lia). reflexivity. Qed.
Lemma nth_error_prod {A B} (ys : list A) (xs : list B) i j y x : nth_error ys i = Some y -> nth_error xs j = Some x ->
  nth_error (list_prod ys xs) (i * length xs + j) = Some (y, x).
Proof.
  revert i. induction ys as [|z ys IH]; intros i Hy Hx; [destruct i; discriminate|].
  assert (j < length xs)%nat by (apply nth_error_Some; congruence).
  destruct i; cbn [list_prod nth_error] in *.
  - injection Hy as ->. cbn. rewrite nth_error_app1 by (rewrite map_length; lia). rewrite nth_error_map, Hx. reflexivity.
  - rewrite nth_error_app2 by (rewrite map_length; lia). rewrite map_length.
    replace (S i * length xs + j - length xs)%nat with (i * length xs + j)%nat by lia. apply IH; assumption.
Qed.
Lemma NoDup_prod {A B} (ys : list A) (xs : list B) : NoDup ys -> NoDup xs -> NoDup (list_prod ys xs).
Proof.
  intros Hy Hx. induction Hy as [|y ys N Hy IH]; cbn; [constructor|].
  apply NoDup_app_intro.
  - apply Injective_map_NoDup; [intros a b [= ->]; reflexivity|exact Hx].
  - exact IH.
  - intros e H1 H2. apply in_map_iff in H1. destruct H1 as (x & <- & _). apply in_prod_iff in H2. tauto.
Qed.

Lemma mix_inj (n a b c d : nat) : (b < n -> d < n -> a * n + b = c * n + d -> a = c /\ b = d)%nat.
Proof. intros. assert (a = c) by nia. subst. split; [reflexivity|lia]. Qed.

Section Cut.
Context {A : Type}.
Local Notation pixel := (option A).
Implicit Types im : image A.

(* writing at distinct positions *)
Lemma oset_all (l : list (nat * pixel)) : forall cut, NoDup (map fst l) -> (forall p v, In (p, v) l -> (p < length cut)%nat) ->
  exists cut', ofold (fun cut '(p, v) => oset cut p v) l cut = Ok cut' /\ length cut' = length cut /\
    (forall p v, In (p, v) l -> nth_error cut' p = Some v) /\
    (forall p, ~ In p (map fst l) -> nth_error cut' p = nth_error cut p).
Proof.
  induction l as [|[p v] l IH]; intros cut N H.
  - exists cut. cbn. split; [reflexivity|]. split; [reflexivity|]. split; [intros ? ? []|auto].
  - cbn [map fst] in N. inversion N as [|? ? N1 N2]; subst.
    assert (P : (p < length cut)%nat) by (apply (H p v); left; reflexivity).
    assert (E : oset cut p v = Ok (upd cut p v)).
    { unfold oset. apply Nat.ltb_lt in P. rewrite P. reflexivity. }
    cbn [ofold]. rewrite E. cbn [obind].
    destruct (IH (upd cut p v) N2) as (c & E' & L & G1 & G2).
    { intros q w Hq. rewrite upd_length. apply (H q w). right. exact Hq. }
    exists c. split; [exact E'|]. rewrite upd_length in L. split; [exact L|]. split.
    + intros q w [[= <- <-]|Hq]; [|apply G1; exact Hq]. rewrite G2 by exact N1. apply nth_error_upd_same. exact P.
    + intros q Hq. cbn in Hq. rewrite G2 by tauto. apply nth_error_upd_other. intros ->. tauto.
Qed.
Lemma divmod_pos n p : (p < n * n)%nat -> (p / n < n)%nat /\ (p mod n < n)%nat /\ p = (p / n * n + p mod n)%nat.
Proof.
  intros H. assert (n <> 0)%nat by (intros ->; cbn in H; lia).
  split; [apply Nat.div_lt_upper_bound; lia|]. split; [apply Nat.mod_upper_bound; lia|].
  pose proof (Nat.div_mod p n). lia.
Qed.

Lemma window_length h im cx cy : length (window h im cx cy) = ((2 * h + 1) * (2 * h + 1))%nat.
Proof.
  unfold window. rewrite (flat_map_prod (fun Y X => pixel_at im X Y)), map_length, prod_length, !span_zrange, !zrange_length.
  f_equal; lia.
Qed.
Lemma window_nth h im cx cy i j : (i < 2 * h + 1)%nat -> (j < 2 * h + 1)%nat ->
  nth_error (window h im cx cy) (i * (2 * h + 1) + j) =
    Some (pixel_at im (cx - Z.of_nat h + Z.of_nat j) (cy - Z.of_nat h + Z.of_nat i)).
Proof.
  intros Hi Hj. unfold window. rewrite (flat_map_prod (fun Y X => pixel_at im X Y)), nth_error_map.
  assert (L : (2 * h + 1 = length (span h cx))%nat) by (rewrite span_zrange, zrange_length; lia).
  rewrite L. rewrite (nth_error_prod _ _ i j _ _ (nth_error_span h cy i Hi) (nth_error_span h cx j Hj)). reflexivity.
Qed.
Lemma window_inside h im cx cy : 1 <= cx - Z.of_nat h -> cx + Z.of_nat h <= width im -> 1 <= cy - Z.of_nat h -> cy + Z.of_nat h <= height im ->
  read_subset im (cx - Z.of_nat h) (cy - Z.of_nat h) (cx + Z.of_nat h) (cy + Z.of_nat h) = Ok (window h im cx cy).
Proof.
  intros A1 A2 A3 A4. unfold read_subset.
  rewrite (proj2 (Z.leb_le 1 (cx - Z.of_nat h))), (proj2 (Z.leb_le (cx - Z.of_nat h) (cx + Z.of_nat h))),
    (proj2 (Z.leb_le (cx + Z.of_nat h) (width im))), (proj2 (Z.leb_le 1 (cy - Z.of_nat h))),
    (proj2 (Z.leb_le (cy - Z.of_nat h) (cy + Z.of_nat h))), (proj2 (Z.leb_le (cy + Z.of_nat h) (height im))) by lia.
  cbn [andb]. f_equal. unfold window. rewrite <- !span_zrange. 
  rewrite !flat_map_concat_map. f_equal. apply map_ext_in. intros Y HY. apply map_ext_in. intros X HX.
  rewrite span_zrange in HX, HY. apply zrange_In in HX, HY. unfold pixel_at.
  rewrite (proj2 (Z.leb_le 1 X)), (proj2 (Z.leb_le X (width im))), (proj2 (Z.leb_le 1 Y)), (proj2 (Z.leb_le Y (height im))) by lia.
  reflexivity.
Qed.

Lemma window_edge h im cx cy : 1 <= width im -> 1 <= height im -> touches h im cx cy = true ->
  let p0x := cx - Z.of_nat h in let p0y := cy - Z.of_nat h in
  let p1x := cx + Z.of_nat h in let p1y := cy + Z.of_nat h in
  let bx0 := Z.max 1 p0x in let by0 := Z.max 1 p0y in
  let bx1 := Z.min (width im) p1x in let by1 := Z.min (height im) p1y in
  let n := (2 * h + 1)%nat in
  (sub <- read_subset im bx0 by0 bx1 by1 ;;
   paste n (repeat None (n * n)) (by0 - p0y) (by1 - p0y) (bx0 - p0x) (bx1 - p0x) sub) = Ok (window h im cx cy).
Proof.
  intros W H T. unfold touches in T. apply andb_prop in T. destruct T as [T T4]. apply andb_prop in T. destruct T as [T T3].
  apply andb_prop in T. destruct T as [T1 T2]. apply Z.leb_le in T1, T3. apply Z.ltb_lt in T2, T4.
  cbn zeta. set (p0x := cx - Z.of_nat h). set (p0y := cy - Z.of_nat h). set (n := (2 * h + 1)%nat).
  set (bx0 := Z.max 1 p0x). set (by0 := Z.max 1 p0y). set (bx1 := Z.min (width im) _). set (by1 := Z.min (height im) _).
  assert (Bx : 1 <= bx0 <= bx1 /\ bx1 <= width im /\ p0x <= bx0 /\ bx1 - p0x < Z.of_nat n) by lia.
  assert (By : 1 <= by0 <= by1 /\ by1 <= height im /\ p0y <= by0 /\ by1 - p0y < Z.of_nat n) by lia.
  unfold read_subset.
  rewrite (proj2 (Z.leb_le 1 bx0)), (proj2 (Z.leb_le bx0 bx1)), (proj2 (Z.leb_le bx1 (width im))), (proj2 (Z.leb_le 1 by0)),
    (proj2 (Z.leb_le by0 by1)), (proj2 (Z.leb_le by1 (height im))) by lia. cbn [andb obind].
  unfold paste. rewrite (proj2 (Z.ltb_lt (by1 - p0y) (Z.of_nat n))), (proj2 (Z.ltb_lt (by0 - p0y) (Z.of_nat n))),
    (proj2 (Z.ltb_lt (bx1 - p0x) (Z.of_nat n))), (proj2 (Z.ltb_lt (bx0 - p0x) (Z.of_nat n))) by lia. cbn [andb check obind].
  rewrite !zrange_shift.
  rewrite (flat_map_prod (fun r c => (Z.to_nat r * n + Z.to_nat c)%nat)), (flat_map_prod (fun Y X => pix im X Y)).
  set (box := list_prod (zrange by0 by1) (zrange bx0 bx1)).
  assert (Eb : list_prod (map (fun y => y - p0y) (zrange by0 by1)) (map (fun y => y - p0x) (zrange bx0 bx1)) =
               map (fun '(Y, X) => (Y - p0y, X - p0x)) box).
  { unfold box. generalize (zrange by0 by1) (zrange bx0 bx1). intros ys xs. induction ys as [|y ys IH]; cbn; [reflexivity|].
    rewrite map_app, !map_map, IH. reflexivity. }
  rewrite Eb, !map_map, !map_length, Nat.eqb_refl. cbn [check obind].
  rewrite combine_map2. set (l := map _ box).
  assert (InB : forall Y X, In (Y, X) box <-> (by0 <= Y <= by1) /\ (bx0 <= X <= bx1)).
  { intros Y X. unfold box. rewrite in_prod_iff, !zrange_In. reflexivity. }
  assert (Fl : map fst l = map (fun '(Y, X) => (Z.to_nat (Y - p0y) * n + Z.to_nat (X - p0x))%nat) box).
  { unfold l. rewrite map_map. apply map_ext. intros [Y X]. reflexivity. }
  destruct (oset_all l (repeat None (n * n))) as (c & E & L & G1 & G2).
  - rewrite Fl. assert (N : NoDup box) by (apply NoDup_prod; apply zrange_NoDup).
    revert N InB. generalize box. intros b N InB'. assert (InB2 : forall Y X, In (Y, X) b -> (by0 <= Y <= by1) /\ (bx0 <= X <= bx1)) by (intros; apply InB'; assumption).
    clear InB'. induction N as [|[Y X] b Nb N IH]; cbn; [constructor|]. constructor.
    + rewrite in_map_iff. intros ([Y' X'] & E & I). apply Nb.
      pose proof (InB2 Y X (or_introl eq_refl)). pose proof (InB2 Y' X' (or_intror I)).
      assert (Z.to_nat (X - p0x) < n)%nat by lia. assert (Z.to_nat (X' - p0x) < n)%nat by lia.
      apply mix_inj in E; [|assumption|assumption]. destruct E as [E1 E2].
      assert (Y = Y') by lia. assert (X = X') by lia. subst. exact I.
    + apply IH. intros Y' X' I. apply InB2. right. exact I.
  - intros p v I. rewrite repeat_length. unfold l in I. apply in_map_iff in I. destruct I as ([Y X] & [= <- <-] & I).
    apply InB in I. assert (Z.to_nat (Y - p0y) < n)%nat by lia. assert (Z.to_nat (X - p0x) < n)%nat by lia. nia.
  - rewrite E. f_equal. apply list_eq_nth_error. intros p.
    rewrite repeat_length in L.
    destruct (Nat.lt_ge_cases p (n * n)) as [P|P].
    2:{ rewrite (proj2 (nth_error_None c p)) by lia. symmetry. apply nth_error_None. rewrite window_length. exact P. }
    destruct (divmod_pos n p P) as (I & J & Ep). set (i := (p / n)%nat) in *. set (j := (p mod n)%nat) in *. clearbody i j.
    rewrite Ep. unfold n at 2. rewrite (window_nth h im cx cy i j I J). fold p0x p0y n.
    unfold pixel_at. set (X := p0x + Z.of_nat j). set (Y := p0y + Z.of_nat i).
    destruct ((1 <=? X) && (X <=? width im) && (1 <=? Y) && (Y <=? height im)) eqn:C.
    + apply G1. unfold l. apply in_map_iff. exists (Y, X). split; [|apply InB; lia].
      f_equal. replace (Y - p0y) with (Z.of_nat i) by lia. replace (X - p0x) with (Z.of_nat j) by lia. now rewrite !Nat2Z.id.
    + rewrite G2. { rewrite nth_error_repeat; [reflexivity|]. lia. }
      rewrite Fl, in_map_iff. intros ([Y' X'] & E' & I'). apply InB in I'.
      assert (Z.to_nat (X' - p0x) < n)%nat by lia.
      apply mix_inj in E'; [|assumption|assumption]. destruct E' as [E1 E2].
      assert (X = X') by lia. assert (Y = Y') by lia. lia.
Qed.

Lemma cutout_ok h im i x y : 1 <= width im -> 1 <= height im -> nth_error (px im) i = Some x -> nth_error (py im) i = Some y ->
  regular h x -> moderate h x -> regular h y -> moderate h y ->
  cutout h im i = Ok (if touches h im (qround x) (qround y) then Some (window h im (qround x) (qround y)) else None).
Proof.
  intros W H Hx Hy Rx Mx Ry My. unfold cutout, oget. rewrite Hx, Hy. cbn [obind].
  assert (Hh : (0 <= inject_Z (Z.of_nat h))%Q) by (change 0%Q with (inject_Z 0); rewrite <- Zle_Qle; lia).
  unfold Qminus. rewrite (moderate_range h x), (moderate_range h y), (moderate_range h x), (moderate_range h y) by (assumption || (split; Lqa.lra)).
  cbn [obind]. fold (Qminus x (inject_Z (Z.of_nat h))). fold (Qminus y (inject_Z (Z.of_nat h))).
  rewrite !regular_low, !regular_high by assumption.
  set (cx := qround x). set (cy := qround y).
  assert (T : ((cx + Z.of_nat h <? 1) || (width im <=? cx - Z.of_nat h) || (cy + Z.of_nat h <? 1) || (height im <=? cy - Z.of_nat h)) =
              negb (touches h im cx cy)).
  { unfold touches. lia. }
  rewrite T. destruct (touches h im cx cy) eqn:Ht; cbn [negb]; [|reflexivity].
  destruct ((cx - Z.of_nat h <? 1) || (width im <=? cx + Z.of_nat h) || (cy - Z.of_nat h <? 1) || (height im <=? cy + Z.of_nat h)) eqn:Ed.
  - pose proof (window_edge h im cx cy W H Ht) as E. cbn zeta in E.
    destruct (read_subset im _ _ _ _) as [d| | | |] eqn:Er; cbn [obind] in E |- *; try discriminate.
    rewrite E. reflexivity.
  - rewrite window_inside by lia. cbn [obind]. unfold into. rewrite repeat_length, window_length, Nat.leb_refl. cbn [obind].
    rewrite skipn_all2 by (rewrite repeat_length; lia). rewrite app_nil_r. reflexivity.
Qed.
End Cut.
