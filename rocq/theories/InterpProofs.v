From Coq Require Import ZifyBool QArith Lqa.
From Verif Require Import Base VecProofs VecProofs2 OrderModel OrderSpec OrderProofs OrderProofs2 OrderProofs3
  ReduceProofs ReduceProofs2 InterpModel InterpSpec.
Local Open Scope nat_scope.

Lemma qlt_true a b : qlt a b = true <-> (a < b)%Q.
Proof.
  unfold qlt. destruct (Qle_bool b a) eqn:E; cbn [negb].
  - apply Qle_bool_iff in E. split; [discriminate|lra].
  - apply Qle_bool_false in E. tauto.
Qed.
Lemma qlt_false a b : qlt a b = false <-> (b <= a)%Q.
Proof.
  unfold qlt. destruct (Qle_bool b a) eqn:E; cbn [negb].
  - apply Qle_bool_iff in E. tauto.
  - apply Qle_bool_false in E. split; [discriminate|lra].
Qed.
Lemma qlt_order : weak_order qlt.
Proof.
  split.
  - intros x y H. apply qlt_true in H. apply qlt_false. lra.
  - intros x y z H. apply qlt_true in H. destruct (Qlt_le_dec x y) as [C|C].
    + left. apply qlt_true. exact C.
    + right. apply qlt_true. lra.
Qed.

Lemma increasing_weak x : increasing x -> nondecreasing x.
Proof. intros H i a b Ha Hb. specialize (H i a b Ha Hb). lra. Qed.

Lemma nondecreasing_le x : nondecreasing x -> forall d i a b,
  nth_error x i = Some a -> nth_error x (i + d) = Some b -> (a <= b)%Q.
Proof.
  intros H. induction d as [|d IH]; intros i a b Ha Hb.
  - rewrite Nat.add_0_r in Hb. rewrite Ha in Hb. injection Hb as ->. lra.
  - destruct (nth_error x (i + d)) as [c|] eqn:Ec.
    + specialize (IH i a c Ha Ec). specialize (H (i + d) c b Ec).
      replace (i + d + 1) with (i + S d) in H by lia. specialize (H Hb). lra.
    + apply nth_error_None in Ec. assert (i + S d < length x) by (apply nth_error_Some; congruence). lia.
Qed.
Lemma increasing_lt x : increasing x -> forall i j a b, i < j ->
  nth_error x i = Some a -> nth_error x j = Some b -> (a < b)%Q.
Proof.
  intros H i j a b Hij Ha Hb. destruct (nth_error x (i + 1)) as [c|] eqn:Ec.
  - pose proof (H i a c Ha Ec). assert (c <= b)%Q; [|lra].
    apply (nondecreasing_le x (increasing_weak _ H) (j - (i + 1)) (i + 1)); [exact Ec|].
    replace (i + 1 + (j - (i + 1))) with j by lia. exact Hb.
  - apply nth_error_None in Ec. assert (j < length x) by (apply nth_error_Some; congruence). lia.
Qed.
Lemma nondecreasing_mono x i j a b : nondecreasing x -> i <= j ->
  nth_error x i = Some a -> nth_error x j = Some b -> (a <= b)%Q.
Proof.
  intros H Hij Ha Hb. apply (nondecreasing_le x H (j - i) i); [exact Ha|].
  replace (i + (j - i)) with j by lia. exact Hb.
Qed.
Lemma nondecreasing_ascending x : nondecreasing x -> ascending qlt x.
Proof. intros H i j a b Hij Ha Hb. apply qlt_false. apply (nondecreasing_mono x i j); auto; lia. Qed.

(* the picked segment *)
Lemma pick_ok x t : nondecreasing x -> 2 <= length x ->
  exists low k, lower_bound qlt x t = Ok low /\ pick low (length x) = (k, k + 1) /\ k + 1 < length x /\ segment_for x k t.
Proof.
  intros H L. destruct (lower_bound_ok qlt qlt_order x t (nondecreasing_ascending x H)) as (low & E & S).
  destruct low as [k|].
  - destruct S as [(y & N & Hy) A]. apply qlt_false in Hy. assert (Hk : k < length x) by (apply nth_error_Some; congruence).
    cbn [pick]. destruct (Nat.eqb_spec k (length x - 1)) as [C|C].
    + exists (Some k), (k - 1). split; [exact E|]. cbn [pick]. rewrite (proj2 (Nat.eqb_eq _ _) C).
      split; [f_equal; lia|]. split; [lia|]. destruct (nth_error x (k - 1)) as [a|] eqn:Ea; [|apply nth_error_None in Ea; lia].
      exists a, y. split; [exact Ea|]. replace (k - 1 + 1) with k by lia. split; [exact N|].
      split; [right|left; lia]. assert (a <= y)%Q; [|lra]. apply (nondecreasing_mono x (k - 1) k); auto; lia.
    + exists (Some k), k. split; [exact E|]. cbn [pick]. rewrite (proj2 (Nat.eqb_neq _ _) C).
      split; [reflexivity|]. split; [lia|]. destruct (nth_error x (k + 1)) as [b|] eqn:Eb; [|apply nth_error_None in Eb; lia].
      exists y, b. split; [exact N|]. split; [exact Eb|]. split; [right; exact Hy|right].
      apply qlt_true. apply (A (k + 1)); [lia|exact Eb].
  - exists None, 0. split; [exact E|]. split; [reflexivity|]. split; [lia|].
    destruct (nth_error x 0) as [a|] eqn:Ea; [|apply nth_error_None in Ea; lia].
    destruct (nth_error x (0 + 1)) as [b|] eqn:Eb; [|apply nth_error_None in Eb; lia].
    exists a, b. split; [exact Ea|]. split; [exact Eb|]. split; [left; reflexivity|right].
    apply qlt_true. apply (S _ _ Eb).
Qed.

Lemma interp_at_ok y x t : increasing x -> 2 <= length x -> length y = length x ->
  exists r, interp_at y x t = Ok (Some r) /\ piecewise x y t r.
Proof.
  intros H L LY. destruct (pick_ok x t (increasing_weak _ H) L) as (low & k & E & P & B & S).
  unfold interp_at. rewrite E. cbn [obind]. rewrite P. pose proof S as S'. destruct S as (a & b & Na & Nb & S).
  destruct (oget_in _ y k ltac:(lia)) as (ya & E1 & N1). destruct (oget_in _ y (k + 1) ltac:(lia)) as (yb & E2 & N2).
  rewrite E1. cbn [obind]. rewrite E2. cbn [obind]. rewrite (proj2 (oget_Ok _ _ _ _) Na). cbn [obind].
  rewrite (proj2 (oget_Ok _ _ _ _) Nb). cbn [obind]. pose proof (H k a b Na Nb) as Hab.
  unfold qdiv. destruct (Qeq_bool (b - a) 0) eqn:EQ; [apply Qeq_bool_iff in EQ; exfalso; lra|].
  eexists. split; [reflexivity|]. exists k, a, b, ya, yb. repeat (split; [assumption|]).
  unfold on_line. field. lra.
Qed.

(* the piecewise linear function is a function ... *)
Lemma on_line_unique xa ya xb yb t r r' : (xa < xb)%Q -> on_line xa ya xb yb t r -> on_line xa ya xb yb t r' -> (r == r')%Q.
Proof.
  unfold on_line. intros H H1 H2. assert (((r - r') * (xb - xa) == 0)%Q) as K by (rewrite <- H2 in H1; lra).
  apply Qmult_integral in K as [K|K]; lra.
Qed.
Lemma segment_unique x k k' t : increasing x -> segment_for x k t -> segment_for x k' t -> k = k'.
Proof.
  assert (G : forall k k', increasing x -> segment_for x k t -> segment_for x k' t -> k < k' -> False).
  { intros i j H (a & b & N1 & N2 & _ & B) (a' & b' & N3 & N4 & A & _) C.
    assert (j + 1 < length x) by (apply nth_error_Some; congruence).
    destruct B as [B|B]; [lia|]. destruct A as [A|A]; [lia|].
    assert (b <= a')%Q; [|lra]. apply (nondecreasing_mono x (i + 1) j); auto; [apply increasing_weak; exact H|lia]. }
  intros H S1 S2. destruct (Nat.lt_trichotomy k k') as [C|[C|C]]; [|exact C|]; exfalso; eauto.
Qed.
Lemma piecewise_unique x y t r r' : increasing x -> piecewise x y t r -> piecewise x y t r' -> (r == r')%Q.
Proof.
  intros H (k & xa & xb & ya & yb & S & N1 & N2 & N3 & N4 & O) (k' & xa' & xb' & ya' & yb' & S' & N1' & N2' & N3' & N4' & O').
  pose proof (segment_unique x k k' t H S S'); subst k'.
  rewrite N1 in N1'; injection N1' as <-. rewrite N2 in N2'; injection N2' as <-.
  rewrite N3 in N3'; injection N3' as <-. rewrite N4 in N4'; injection N4' as <-.
  eapply on_line_unique; [|exact O|exact O']. apply (H k); assumption.
Qed.

(* ... with the given values at the nodes *)
Lemma piecewise_node x y i xi yi r : increasing x ->
  nth_error x i = Some xi -> nth_error y i = Some yi -> piecewise x y xi r -> (r == yi)%Q.
Proof.
  intros H Nx Ny (k & xa & xb & ya & yb & S & N1 & N2 & N3 & N4 & O).
  assert (i < length x) by (apply nth_error_Some; congruence).
  assert (K : i = k \/ i = k + 1).
  { destruct S as (a & b & Na & Nb & A & B). rewrite N1 in Na; injection Na as <-. rewrite N2 in Nb; injection Nb as <-.
    destruct (Nat.lt_trichotomy i k) as [C|[C|C]]; [|left; exact C|].
    - destruct A as [A|A]; [lia|]. pose proof (increasing_lt x H i k _ _ C Nx N1). lra.
    - destruct (Nat.eq_dec i (k + 1)) as [D|D]; [right; exact D|].
      destruct B as [B|B]; [lia|]. assert (k + 1 < i) as D' by lia. pose proof (increasing_lt x H (k + 1) i _ _ D' N2 Nx). lra. }
  pose proof (H k xa xb N1 N2) as Hab. unfold on_line in O. destruct K as [->| ->].
  - rewrite N1 in Nx; injection Nx as <-. rewrite N3 in Ny; injection Ny as <-.
    assert (((r - ya) * (xb - xa) == 0)%Q) as K by (rewrite O; ring). apply Qmult_integral in K as [K|K]; lra.
  - rewrite N2 in Nx; injection Nx as <-. rewrite N4 in Ny; injection Ny as <-.
    assert (((r - yb) * (xb - xa) == 0)%Q) as K.
    { setoid_replace ((r - yb) * (xb - xa))%Q with ((r - ya) * (xb - xa) - (yb - ya) * (xb - xa))%Q by ring. rewrite O. ring. }
    apply Qmult_integral in K as [K|K]; lra.
Qed.

Lemma piecewise_linear x y a b t r : increasing x ->
  (forall i xi yi, nth_error x i = Some xi -> nth_error y i = Some yi -> (yi == a * xi + b)%Q) ->
  piecewise x y t r -> (r == a * t + b)%Q.
Proof.
  intros H Lin (k & xa & xb & ya & yb & S & N1 & N2 & N3 & N4 & O). pose proof (H k xa xb N1 N2) as Hab.
  apply (on_line_unique xa ya xb yb t r (a * t + b)%Q Hab O). unfold on_line.
  rewrite (Lin _ _ _ N1 N3), (Lin _ _ _ N2 N4). ring.
Qed.

(* inside the range, the value stays between its neighbours *)
Lemma piecewise_between x y t r x0 xn : increasing x ->
  nth_error x 0 = Some x0 -> nth_error x (length x - 1) = Some xn -> (x0 <= t <= xn)%Q ->
  piecewise x y t r ->
  exists k ya yb, segment_for x k t /\ nth_error y k = Some ya /\ nth_error y (k + 1) = Some yb /\
    ((ya <= r <= yb)%Q \/ (yb <= r <= ya)%Q).
Proof.
  intros H N0 Nn [T0 Tn] (k & xa & xb & ya & yb & S & N1 & N2 & N3 & N4 & O).
  exists k, ya, yb. repeat (split; [assumption|]). pose proof (H k xa xb N1 N2) as Hab.
  assert (A : (xa <= t)%Q).
  { destruct S as (a & b & Na & Nb & A & B). rewrite N1 in Na; injection Na as <-. destruct A as [A|A]; [|exact A].
    subst k. rewrite N1 in N0; injection N0 as <-. exact T0. }
  assert (B : (t <= xb)%Q).
  { destruct S as (a & b & Na & Nb & _ & B). rewrite N2 in Nb; injection Nb as <-. destruct B as [B|B]; [|lra].
    replace (length x - 1) with (k + 1) in Nn by lia. rewrite N2 in Nn; injection Nn as <-. exact Tn. }
  unfold on_line in O.
  assert (D : (0 < xb - xa)%Q) by lra.
  destruct (Qlt_le_dec yb ya) as [C|C].
  - right. split.
    + apply (Qmult_le_r _ _ (xb - xa) D). assert ((0 <= (ya - yb) * (xb - t))%Q) by (apply Qmult_le_0_compat; lra). lra.
    + apply (Qmult_le_r _ _ (xb - xa) D). assert ((0 <= (ya - yb) * (t - xa))%Q) by (apply Qmult_le_0_compat; lra). lra.
  - left. split.
    + apply (Qmult_le_r _ _ (xb - xa) D). assert ((0 <= (yb - ya) * (t - xa))%Q) by (apply Qmult_le_0_compat; lra). lra.
    + apply (Qmult_le_r _ _ (xb - xa) D). assert ((0 <= (yb - ya) * (xb - t))%Q) by (apply Qmult_le_0_compat; lra). lra.
Qed.

Lemma interp_point_ok dims y x t : increasing x -> 2 <= length x -> length y = length x ->
  exists r, interp_point dims dims y x t = Ok (Some r) /\ piecewise x y t r.
Proof.
  intros H L LY. unfold interp_point. destruct (list_eq_dec Nat.eq_dec dims dims); [|congruence]. cbn [check obind].
  destruct (Nat.leb_spec 2 (length y)); [|lia]. cbn [check obind]. apply interp_at_ok; assumption.
Qed.
Lemma interp_vec_ok y x nx : increasing x -> 2 <= length x -> length y = length x ->
  exists r, interp_vec y x nx = Ok r /\ Forall2 (fun t o => exists v, o = Some v /\ piecewise x y t v) nx r.
Proof.
  intros H L LY. unfold interp_vec. rewrite (proj2 (Nat.eqb_eq _ _) LY). cbn [check obind].
  destruct (Nat.leb_spec 2 (length y)); [|lia]. cbn [check obind].
  induction nx as [|t nx IH]; [exists []; split; [reflexivity|constructor]|].
  cbn [omapl]. destruct (interp_at_ok y x t H L LY) as (r & E & P). rewrite E. cbn [obind].
  destruct IH as (rs & E2 & F). rewrite E2. cbn [obind]. exists (Some r :: rs). split; [reflexivity|].
  constructor; [exists r; auto|exact F].
Qed.
Lemma interp_vec_point dims y x nx : length y = length x -> 
  interp_vec y x nx = 
    if 2 <=? length y then omapl (interp_point dims dims y x) nx else CheckFail.
Proof.
  intros LY. unfold interp_vec, interp_point. rewrite (proj2 (Nat.eqb_eq _ _) LY).
  destruct (list_eq_dec Nat.eq_dec dims dims); [|congruence]. cbn [check obind].
  destruct (2 <=? length y); reflexivity.
Qed.

(* same value as the version with errors *)
Lemma interp_err_ok dims y e x nx : increasing x -> 2 <= length x -> length y = length x -> length e = length x ->
  exists r, interp_vec_err dims dims y e x nx = Ok r /\
    Forall2 (fun t o => exists v s k xa xb ea eb, o = Some (v, s) /\ piecewise x y t v /\
      segment_for x k t /\ nth_error x k = Some xa /\ nth_error x (k + 1) = Some xb /\
      nth_error e k = Some ea /\ nth_error e (k + 1) = Some eb /\
      (s * ((xb - xa) * (xb - xa)) == ea * ea * ((xb - t) * (xb - t)) + eb * eb * ((t - xa) * (t - xa)))%Q) nx r.
Proof.
  intros H L LY LE. unfold interp_vec_err. destruct (list_eq_dec Nat.eq_dec dims dims); [|congruence]. cbn [check obind].
  destruct (Nat.leb_spec 2 (length y)); [|lia]. cbn [check obind].
  induction nx as [|t nx IH]; [exists []; split; [reflexivity|constructor]|].
  destruct (pick_ok x t (increasing_weak _ H) L) as (low & k & E & P & B & S).
  cbn [omapl]. unfold interp_at_err at 1. rewrite E. cbn [obind]. rewrite P.
  pose proof S as (a & b & Na & Nb & _).
  destruct (oget_in _ y k ltac:(lia)) as (ya & E1 & N1). destruct (oget_in _ y (k + 1) ltac:(lia)) as (yb & E2 & N2).
  destruct (oget_in _ e k ltac:(lia)) as (ea & E3 & N3). destruct (oget_in _ e (k + 1) ltac:(lia)) as (eb & E4 & N4).
  rewrite E1. cbn [obind]. rewrite E2. cbn [obind]. rewrite E3. cbn [obind]. rewrite E4. cbn [obind].
  rewrite (proj2 (oget_Ok _ _ _ _) Na). cbn [obind].
  rewrite (proj2 (oget_Ok _ _ _ _) Nb). cbn [obind]. pose proof (H k a b Na Nb) as Hab.
  unfold qdiv. destruct (Qeq_bool (b - a) 0) eqn:EQ; [apply Qeq_bool_iff in EQ; exfalso; lra|].
  destruct IH as (rs & E5 & F). rewrite E5. cbn [obind].
  eexists. split; [reflexivity|]. constructor; [|exact F].
  eexists _, _, k, a, b, ea, eb. split; [reflexivity|]. split.
  - exists k, a, b, ya, yb. repeat (split; [assumption|]). unfold on_line. field. lra.
  - repeat (split; [assumption|]). field. lra.
Qed.
