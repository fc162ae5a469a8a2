(* C102: normalised sky coordinates. *)
From Coq Require Import QArith Qfield Lqa Lia Qround.
From Verif Require Import Base VecProofs2 NormModel NormSpec NormProofs.
Local Open Scope nat_scope.

(* For declinations from -270 to 450 the result is in the ranges 0 to 360 and -90 to 90, and is the
   same point; the loops end. *)
Theorem C102_range : forall ra dec, (-(270) <= dec)%Q -> (dec <= 450)%Q -> exists n r d,
  (forall fuel, n < fuel -> normalize fuel (Fin ra, Fin dec) = Ok (Fin r, Fin d)) /\ normal r d /\ same_point ra dec r d.
Proof.
  intros ra dec H1 H2. destruct (normalize_ok ra dec) as (n & r & k & E & A & B & _ & W). exists n, r, (under (over dec)). split; [exact W|]. split.
  - split; [exact A|]. split; [exact B|]. unfold under, over. destruct (Qlt_le_dec 90 dec); [destruct (Qlt_le_dec (180 - dec) (-(90)))|destruct (Qlt_le_dec dec (-(90)))]; split; lra.
  - revert E. unfold flips, under, over, same_point. destruct (Qlt_le_dec 90 dec); [destruct (Qlt_le_dec (180 - dec) (-(90)))|destruct (Qlt_le_dec dec (-(90)))]; intros E.
    + exists (k + 1)%Z, (-(1))%Z. left. rewrite inject_Z_plus. change (inject_Z 1) with 1%Q. change (inject_Z (-(1))) with (-(1))%Q. split; lra.
    + exists k, 0%Z. right. change (inject_Z 0) with 0%Q. split; lra.
    + exists k, (-(1))%Z. right. change (inject_Z (-(1))) with (-(1))%Q. split; lra.
    + exists k, 0%Z. left. change (inject_Z 0) with 0%Q. split; lra.
Qed.
Print Assumptions C102_range.
(* for all coordinates it is the same point, and the right ascension is in range *)
Theorem C102_same : forall ra dec, exists n r d,
  (forall fuel, n < fuel -> normalize fuel (Fin ra, Fin dec) = Ok (Fin r, Fin d)) /\ (0 <= r)%Q /\ (r <= 360)%Q /\ same_point ra dec r d.
Proof.
  intros ra dec. destruct (normalize_ok ra dec) as (n & r & k & E & A & B & _ & W). exists n, r, (under (over dec)). split; [exact W|]. split; [exact A|]. split; [exact B|].
  revert E. unfold flips, under, over, same_point. destruct (Qlt_le_dec 90 dec); [destruct (Qlt_le_dec (180 - dec) (-(90)))|destruct (Qlt_le_dec dec (-(90)))]; intros E.
  + exists (k + 1)%Z, (-(1))%Z. left. rewrite inject_Z_plus. change (inject_Z 1) with 1%Q. change (inject_Z (-(1))) with (-(1))%Q. split; lra.
  + exists k, 0%Z. right. change (inject_Z 0) with 0%Q. split; lra.
  + exists k, (-(1))%Z. right. change (inject_Z (-(1))) with (-(1))%Q. split; lra.
  + exists k, 0%Z. left. change (inject_Z 0) with 0%Q. split; lra.
Qed.
Print Assumptions C102_same.

Lemma whole_turns R (t : angles R) : forall k x, cosine R t (x + 360 * inject_Z k) = cosine R t x /\ sine R t (x + 360 * inject_Z k) = sine R t x.
Proof.
  assert (U : forall x, cosine R t (x + 360) = cosine R t x /\ sine R t (x + 360) = sine R t x).
  { intros x. rewrite (cosine_eq R t (x + 360) (x + 180 + 180)), (sine_eq R t (x + 360) (x + 180 + 180)) by ring. rewrite !cosine_half, !sine_half, !opp_opp. auto. }
  intros k. induction k as [|k IH|k IH] using Z.peano_ind; intros x.
  - change (inject_Z 0) with 0%Q. split; [apply cosine_eq|apply sine_eq]; ring.
  - unfold Z.succ. rewrite inject_Z_plus. change (inject_Z 1) with 1%Q. rewrite (cosine_eq R t _ (x + 360 * inject_Z k + 360)), (sine_eq R t _ (x + 360 * inject_Z k + 360)) by ring.
    destruct (U (x + 360 * inject_Z k)%Q) as [-> ->]. apply IH.
  - unfold Z.pred. rewrite inject_Z_plus. change (inject_Z (-1)) with (-(1))%Q. destruct (U (x + 360 * (inject_Z k + -(1)))%Q) as [<- <-].
    rewrite (cosine_eq R t _ (x + 360 * inject_Z k)), (sine_eq R t _ (x + 360 * inject_Z k)) by ring. apply IH.
Qed.
(* the same point is the same direction in space, whatever cosine and sine are *)
Theorem C102_direction : forall R (t : angles R) ra dec ra' dec', same_point ra dec ra' dec' -> direction t ra' dec' = direction t ra dec.
Proof.
  intros R t ra dec ra' dec' (k & m & [(E1 & E2)|(E1 & E2)]); unfold direction; rewrite (cosine_eq R t _ _ E1), (cosine_eq R t _ _ E2), (sine_eq R t _ _ E1), (sine_eq R t _ _ E2).
  - destruct (whole_turns R t k ra) as [-> ->], (whole_turns R t m dec) as [-> ->]. reflexivity.
  - destruct (whole_turns R t k (ra + 180)%Q) as [-> ->], (whole_turns R t m (180 - dec)%Q) as [-> ->].
    rewrite (cosine_eq R t (180 - dec) (- dec + 180)), (sine_eq R t (180 - dec) (- dec + 180)) by ring. rewrite !cosine_half, !sine_half, cosine_even, sine_odd, opp_opp, !mul_opp_l, !mul_opp_r, !opp_opp. reflexivity.
Qed.
Print Assumptions C102_direction.
(* coordinates in the ranges are not changed *)
Theorem C102_normal : forall ra dec, normal ra dec -> exists n, forall fuel, n < fuel -> normalize fuel (Fin ra, Fin dec) = Ok (Fin ra, Fin dec).
Proof.
  intros ra dec (A & B & C & D). destruct (normalize_ok ra dec) as (n & r & k & _ & _ & _ & I & W). exists n. intros fuel F. rewrite (W fuel F), (I A B C D).
  unfold under, over. destruct (Qlt_le_dec 90 dec); [lra|]. destruct (Qlt_le_dec dec (-(90))); [lra|]. reflexivity.
Qed.
Print Assumptions C102_normal.
(* vectors: every pair by itself, and the dimensions must be the same *)
Theorem C102_vector : forall fuel dims ra dec, length ra = length dec ->
  normalize_all fuel (dims, ra) (dims, dec) = omapl (normalize fuel) (combine ra dec).
Proof.
  intros fuel dims ra dec L. unfold normalize_all. cbn [fst snd]. destruct (list_eq_dec Nat.eq_dec dims dims) as [_|N]; [|congruence]. cbn [check obind].
  assert (G : forall (ra dec pr pd : list coord), length ra = length dec -> length pr = length pd ->
    omapl (fun i => r <- oget (pr ++ ra) i ;; d <- oget (pd ++ dec) i ;; normalize fuel (r, d)) (seq (length pr) (length ra)) = omapl (normalize fuel) (combine ra dec)).
  { clear. induction ra as [|r ra IH]; intros [|d dec] pr pd L Lp; try discriminate; [reflexivity|].
    cbn [length seq combine omapl]. unfold oget at 1 2. rewrite !nth_error_app2 by lia. rewrite Lp, !Nat.sub_diag. cbn [nth_error obind].
    destruct (normalize fuel (r, d)); cbn [obind]; try reflexivity.
    specialize (IH dec (pr ++ [r]) (pd ++ [d]) ltac:(cbn in L; lia) ltac:(rewrite !app_length; cbn; lia)).
    rewrite <- !app_assoc in IH. cbn [app] in IH. rewrite app_length in IH. cbn [length] in IH. rewrite Nat.add_1_r in IH. rewrite Lp in IH. rewrite IH. reflexivity. }
  exact (G ra dec [] [] L eq_refl).
Qed.
Print Assumptions C102_vector.
Theorem C102_vector_dims : forall fuel ra dec, fst ra <> fst dec -> normalize_all fuel ra dec = CheckFail.
Proof. intros fuel ra dec N. unfold normalize_all. destruct (list_eq_dec Nat.eq_dec (fst ra) (fst dec)); [congruence|reflexivity]. Qed.
Print Assumptions C102_vector_dims.
(* NaN is kept *)
Theorem C102_nan : forall ra dec, (forall fuel, 0 < fuel -> normalize fuel (Nan, Nan) = Ok (Nan, Nan)) /\
  (exists n r d, forall fuel, n < fuel -> normalize fuel (Fin ra, Nan) = Ok (Fin r, Nan) /\ normalize fuel (Nan, Fin dec) = Ok (Nan, Fin d)).
Proof.
  intros ra dec. split; [intros [|fuel] F; [lia|reflexivity]|].
  destruct (turns Nan ra) as (n & r & k & _ & _ & _ & _ & W). exists (S n), r, (under (over dec)). intros fuel F. split.
  - unfold normalize. rewrite while_stop by (reflexivity || lia). cbn [obind]. rewrite while_stop by (reflexivity || lia). cbn [obind]. apply W. lia.
  - unfold normalize. destruct fuel as [|[|fuel]]; [lia|lia|]. unfold over, under.
    destruct (Qlt_le_dec 90 dec) as [H|H].
    + rewrite while_go by (cbn [snd]; apply below_true; exact H). cbn [fst snd plus from]. rewrite while_stop by (first [lia|cbn [snd]; apply below_false; lra]). cbn [obind].
      destruct (Qlt_le_dec (180 - dec) (-(90))) as [G|G].
      * rewrite while_go by (cbn [snd]; apply above_true; exact G). cbn [fst snd plus from]. rewrite while_stop by (first [lia|cbn [snd]; apply above_false; change (-90 # 1)%Q with (-(90))%Q; lra]). reflexivity.
      * rewrite while_stop by (first [lia|cbn [snd]; apply above_false; exact G]). reflexivity.
    + rewrite while_stop by (first [lia|cbn [snd]; apply below_false; lra]). cbn [obind].
      destruct (Qlt_le_dec dec (-(90))) as [G|G].
      * rewrite while_go by (cbn [snd]; apply above_true; exact G). cbn [fst snd plus from]. rewrite while_stop by (first [lia|cbn [snd]; apply above_false; change (-90 # 1)%Q with (-(90))%Q; lra]). reflexivity.
      * rewrite while_stop by (first [lia|cbn [snd]; apply above_false; exact G]). reflexivity.
Qed.
Print Assumptions C102_nan.

Example ex_pole : normalize 10 (Fin 350, Fin 95)%Q = Ok (Fin (350 + 180 + -360), Fin (180 - 95))%Q.
Proof. vm_compute. reflexivity. Qed.
Example ex_turns : normalize 10 (Fin (-730), Fin (-100))%Q = Ok (Fin (-730 + 180 + 360 + 360), Fin (-180 - -100))%Q.
Proof. vm_compute. reflexivity. Qed.
(* a cosine and a sine (square waves) *)
Definition square (x : Q) : Z :=
  let n := Qfloor (x / 180) in
  if Qeq_bool x (180 * inject_Z n) then 0%Z else if Z.even n then 1%Z else (-1)%Z.
Lemma square_eq x y : (x == y)%Q -> square x = square y.
Proof. intros E. unfold square. assert (F : Qfloor (x / 180) = Qfloor (y / 180)) by (apply Qfloor_comp; rewrite E; reflexivity). rewrite F. replace (Qeq_bool x (180 * inject_Z (Qfloor (y / 180)))) with (Qeq_bool y (180 * inject_Z (Qfloor (y / 180)))); [reflexivity|]. apply Bool.eq_iff_eq_true. rewrite !Qeq_bool_iff. split; lra. Qed.
Lemma floor_turn x : Qfloor ((x + 180) / 180) = (Qfloor (x / 180) + 1)%Z.
Proof.
  assert (E : ((x + 180) / 180 == x / 180 + 1)%Q) by field. rewrite (Qfloor_comp _ _ E).
  pose proof (Qfloor_le (x / 180)). pose proof (Qlt_floor (x / 180)). pose proof (Qfloor_le (x / 180 + 1)). pose proof (Qlt_floor (x / 180 + 1)).
  rewrite inject_Z_plus in *. change (inject_Z 1) with 1%Q in *.
  assert (B : (inject_Z (Qfloor (x / 180) + 1) < inject_Z (Qfloor (x / 180 + 1) + 1))%Q) by (rewrite !inject_Z_plus; change (inject_Z 1) with 1%Q; lra).
  assert (C : (inject_Z (Qfloor (x / 180 + 1)) < inject_Z (Qfloor (x / 180) + 2))%Q) by (rewrite !inject_Z_plus; change (inject_Z 2) with 2%Q; lra).
  rewrite <- Zlt_Qlt in B, C. lia.
Qed.
Lemma square_half x : square (x + 180) = (- square x)%Z.
Proof.
  unfold square. rewrite floor_turn. set (n := Qfloor (x / 180)).
  assert (E : Qeq_bool (x + 180) (180 * inject_Z (n + 1)) = Qeq_bool x (180 * inject_Z n)).
  { apply Bool.eq_iff_eq_true. rewrite !Qeq_bool_iff, inject_Z_plus. change (inject_Z 1) with 1%Q. split; lra. }
  rewrite E. destruct (Qeq_bool x (180 * inject_Z n)); [reflexivity|]. rewrite Z.even_add. destruct (Z.even n); reflexivity.
Qed.
Lemma square_odd x : square (- x) = (- square x)%Z.
Proof.
  unfold square. set (n := Qfloor (x / 180)). set (m := Qfloor (- x / 180)).
  assert (N1 : (inject_Z n <= x / 180)%Q) by apply Qfloor_le. assert (N2 : (x / 180 < inject_Z (n + 1))%Q) by apply Qlt_floor.
  assert (M1 : (inject_Z m <= - x / 180)%Q) by apply Qfloor_le. assert (M2 : (- x / 180 < inject_Z (m + 1))%Q) by apply Qlt_floor.
  assert (D : (- x / 180 == - (x / 180))%Q) by field. rewrite D in M1, M2. set (y := (x / 180)%Q) in *. assert (X : (x == 180 * y)%Q) by (unfold y; field).
  rewrite inject_Z_plus in N2, M2. change (inject_Z 1) with 1%Q in N2, M2.
  assert (S1 : (inject_Z (m + n) <= 0)%Q) by (rewrite inject_Z_plus; lra). assert (S2 : (-(2) < inject_Z (m + n))%Q) by (rewrite inject_Z_plus; lra).
  change 0%Q with (inject_Z 0) in S1. change (-(2))%Q with (inject_Z (-2)) in S2. rewrite <- Zle_Qle in S1. rewrite <- Zlt_Qlt in S2.
  destruct (Qeq_bool x (180 * inject_Z n)) eqn:E.
  - apply Qeq_bool_iff in E. assert (M : m = (- n)%Z).
    { destruct (Z.eq_dec m (- n)) as [|Ne]; [assumption|]. assert (F : m = (- n - 1)%Z) by lia. rewrite F in M2. unfold Z.sub in M2. rewrite inject_Z_plus, inject_Z_opp in M2. change (inject_Z (-(1))) with (-(1))%Q in M2. lra. }
    assert (E' : Qeq_bool (- x) (180 * inject_Z m) = true) by (apply Qeq_bool_iff; rewrite M, inject_Z_opp; lra). rewrite E'. reflexivity.
  - assert (Ne : ~ (x == 180 * inject_Z n)%Q) by (intros K; apply Qeq_bool_iff in K; congruence).
    assert (M : m = (- n - 1)%Z).
    { destruct (Z.eq_dec m (- n)) as [F|]; [|lia]. exfalso. rewrite F, inject_Z_opp in M1. apply Ne. lra. }
    destruct (Qeq_bool (- x) (180 * inject_Z m)) eqn:E'.
    + apply Qeq_bool_iff in E'. exfalso. rewrite M in E'. unfold Z.sub in E'. rewrite inject_Z_plus, inject_Z_opp in E'. change (inject_Z (-(1))) with (-(1))%Q in E'. lra.
    + rewrite M. unfold Z.sub. rewrite Z.even_add, Z.even_opp. destruct (Z.even n); reflexivity.
Qed.
Definition square_angles : angles Z.
Proof.
  refine {| opp := Z.opp; mul := Z.mul; cosine := fun x => square (x + 90); sine := square |}; intros.
  - lia.
  - ring.
  - ring.
  - apply square_eq. lra.
  - apply square_eq. assumption.
  - rewrite <- square_half. apply square_eq. ring.
  - apply square_half.
  - rewrite (square_eq _ (- (x + 90) + 180)) by ring. rewrite square_half, square_odd. lia.
  - apply square_odd.
Defined.
Example ex_direction : direction square_angles 10 20 = (1, 1, 1)%Z /\ direction square_angles 190 160 = (1, 1, 1)%Z /\ direction square_angles 190 20 = (-1, -1, 1)%Z.
Proof. vm_compute. auto. Qed.

(* Finding: a declination above 450 or below -270 is not brought into the range: each loop is only
   done once, whatever the other does. *)
Theorem C102_far_refuted : forall ra dec, (dec < -(270))%Q \/ (450 < dec)%Q -> exists n r d,
  (forall fuel, n < fuel -> normalize fuel (Fin ra, Fin dec) = Ok (Fin r, Fin d)) /\ (90 < d)%Q.
Proof.
  intros ra dec H. destruct (normalize_ok ra dec) as (n & r & k & _ & _ & _ & _ & W). exists n, r, (under (over dec)). split; [exact W|].
  unfold under, over. destruct (Qlt_le_dec 90 dec); [destruct (Qlt_le_dec (180 - dec) (-(90)))|destruct (Qlt_le_dec dec (-(90)))]; lra.
Qed.
Print Assumptions C102_far_refuted.
(* Finding: the result is not unique: right ascensions 0 and 360 are the same point and are both left
   as they are. *)
Theorem C102_unique_refuted : forall dec, (-(90) <= dec)%Q -> (dec <= 90)%Q -> same_point 0 dec 360 dec /\
  exists n, forall fuel, n < fuel -> normalize fuel (Fin 0, Fin dec) = Ok (Fin 0, Fin dec) /\ normalize fuel (Fin 360, Fin dec) = Ok (Fin 360, Fin dec).
Proof.
  intros dec H1 H2. split; [exists 1%Z, 0%Z; left; change (inject_Z 1) with 1%Q; change (inject_Z 0) with 0%Q; split; lra|].
  destruct (C102_normal 0 dec) as (n & N); [repeat split; lra|]. destruct (C102_normal 360 dec) as (m & M); [repeat split; lra|].
  exists (max n m). intros fuel F. split; [apply N|apply M]; lia.
Qed.
Print Assumptions C102_unique_refuted.
(* Finding: an infinite right ascension makes it run for ever. *)
Theorem C102_inf_diverges : forall fuel neg dec, normalize fuel (Inf neg, Fin dec) = Diverge.
Proof.
  intros fuel neg dec.
  assert (A : forall (test : coord * coord -> bool) step neg f d, (forall x, fst (step (Inf neg, x)) = Inf neg) -> (forall x, test (Inf neg, x) = true) -> while f test step (Inf neg, d) = Diverge).
  { clear. intros test step neg f d H T. revert d. induction f as [|f IH]; intros d; [reflexivity|]. cbn [while]. rewrite T. specialize (H d). destruct (step (Inf neg, d)) as [r x]. cbn [fst] in H. subst r. apply IH. }
  assert (B : forall (test : coord * coord -> bool) step f d, (forall x, fst (step (Inf neg, x)) = Inf neg) -> while f test step (Inf neg, d) = Diverge \/ exists d', while f test step (Inf neg, d) = Ok (Inf neg, d')).
  { clear. intros test step f d H. revert d. induction f as [|f IH]; intros d; [left; reflexivity|]. cbn [while]. destruct (test (Inf neg, d)); [|right; eauto]. specialize (H d). destruct (step (Inf neg, d)) as [r x]. cbn [fst] in H. subst r. apply IH. }
  unfold normalize. edestruct B as [->|(d1 & ->)]; [reflexivity|reflexivity|]. cbn [obind]. edestruct B as [->|(d2 & ->)]; [reflexivity|reflexivity|]. cbn [obind].
  destruct neg.
  - edestruct B as [->|(d3 & ->)]; [reflexivity|reflexivity|]. cbn [obind]. apply A; reflexivity.
  - rewrite A by reflexivity. reflexivity.
Qed.
Print Assumptions C102_inf_diverges.
