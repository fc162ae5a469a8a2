(* Lemmas on the fit of templates. *)
From Coq Require Import QArith Lqa ZifyBool ZifyNat.
From Verif Require Import Base VecProofs AsciiProofs6 OrderModel OrderSpec OrderProofs ReduceModel ReduceProofs2 TfitModel TfitSpec.
Local Open Scope nat_scope.

Lemma olt_weak : weak_order olt.
Proof.
  split.
  - intros [x|] [y|]; cbn; try congruence. intros H.
    destruct (Qle_bool x y) eqn:E; [reflexivity|]. exfalso.
    assert (~ (x <= y)%Q) by (intros K; apply Qle_bool_iff in K; congruence).
    destruct (Qle_bool y x) eqn:E2; [discriminate|].
    assert (~ (y <= x)%Q) by (intros K; apply Qle_bool_iff in K; congruence). lra.
  - intros [x|] [y|] [z|]; cbn; try tauto; try congruence. intros H.
    destruct (Qle_bool y x) eqn:E1; [|auto]. destruct (Qle_bool z y) eqn:E2; [|auto].
    apply Qle_bool_iff in E1, E2. assert (z <= x)%Q by lra. apply Qle_bool_iff in H0. rewrite H0 in H. discriminate.
Qed.
Lemma olt_Some x y : olt (Some x) (Some y) = true <-> (x < y)%Q.
Proof.
  cbn. destruct (Qle_bool y x) eqn:E; cbn.
  - apply Qle_bool_iff in E. split; [discriminate|lra].
  - split; [|reflexivity]. intros _. assert (~ (y <= x)%Q) by (intros K; apply Qle_bool_iff in K; congruence). lra.
Qed.

Lemma min_index_first l : (exists x, In (Some x) l) -> exists i, min_index l = Ok i /\ first_min l i.
Proof.
  intros (x & Hx). destruct (min_ok olt olt_weak l) as (i & m & E & Ni & H); [intros ->; destruct Hx|].
  unfold min_index. rewrite E. cbn [omap fst]. exists i. split; [reflexivity|].
  apply In_nth_error in Hx as (j & Hj). destruct m as [c|].
  - exists c. split; [exact Ni|]. intros k d Hk. destruct (H k _ Hk) as (A & B). split.
    + destruct (Qlt_le_dec d c) as [L|L]; [|exact L]. apply olt_Some in L. congruence.
    + intros Hlt. apply olt_Some. auto.
  - destruct (H j _ Hj) as (A & _). discriminate.
Qed.
Lemma min_index_none l : l <> [] -> (forall x, ~ In (Some x) l) -> min_index l = Ok 0.
Proof.
  intros Hl H. destruct (min_ok olt olt_weak l Hl) as (i & m & E & Ni & Hm). unfold min_index. rewrite E. cbn [omap fst].
  destruct i as [|i]; [reflexivity|]. destruct l as [|a l]; [congruence|]. destruct (Hm 0 a eq_refl) as (_ & K). specialize (K ltac:(lia)).
  destruct m as [c|]; [|discriminate]. exfalso. apply (H c). eapply nth_error_In. exact Ni.
Qed.
Lemma first_min_index l i : first_min l i -> min_index l = Ok i.
Proof.
  intros (c & Nc & H). destruct (min_index_first l) as (k & E & d & Nd & K); [exists c; eapply nth_error_In; exact Nc|].
  rewrite E. f_equal. destruct (H k d Nd) as (A & B), (K i c Nc) as (C & D).
  destruct (Nat.lt_trichotomy i k) as [L|[L|L]]; [specialize (D L); lra|auto|specialize (B L); lra].
Qed.

Lemma totalq_cons x l : (totalq (x :: l) == x + totalq l)%Q.
Proof.
  unfold totalq. cbn [fold_left]. assert (forall l a, (fold_left Qplus l a == a + fold_left Qplus l 0)%Q) as G.
  { clear. induction l as [|y l IH]; intros a; cbn [fold_left]; [ring|]. rewrite (IH (a + y)%Q), (IH (0 + y)%Q). ring. }
  rewrite G. ring.
Qed.
Lemma zipq_ok f a b : length a = length b -> zipq f a b = Ok (map (fun p => f (fst p) (snd p)) (combine a b)).
Proof. intros H. unfold zipq. rewrite H, Nat.eqb_refl. reflexivity. Qed.
Lemma zipq_len (f : Q -> Q -> Q) a b : length a = length b -> length (map (fun p => f (fst p) (snd p)) (combine a b)) = length a.
Proof. intros H. rewrite map_length, combine_length. lia. Qed.

(* weighted sums *)
Fixpoint wsum (e y t : list Q) : Q :=
  match e, y, t with
  | e1 :: e, y1 :: y, t1 :: t => (y1 / e1) * (t1 / e1) + wsum e y t
  | _, _, _ => 0
  end%Q.
Lemma inv_split e : ~ (e == 0)%Q -> (invsqr e == / e * / e)%Q.
Proof. intros H. unfold invsqr. field. exact H. Qed.
Lemma wdot_ok e y t : length y = length e -> length t = length e -> (forall x, In x e -> ~ (x == 0)%Q) ->
  exists s, wdot (map invsqr e) y t = Ok s /\ (s == wsum e y t)%Q.
Proof.
  intros Ly Lt He. unfold wdot. rewrite zipq_ok by (rewrite map_length; lia). cbn [obind].
  rewrite zipq_ok by (rewrite zipq_len; rewrite map_length; lia). cbn [obind]. eexists. split; [reflexivity|].
  revert y t Ly Lt. induction e as [|e1 e IH]; intros [|y1 y] [|t1 t] Ly Lt; try discriminate; [reflexivity|].
  cbn [map combine fst snd wsum]. rewrite totalq_cons, IH; [|intros; apply He; right; assumption|cbn in Ly; lia|cbn in Lt; lia].
  rewrite inv_split by (apply He; left; reflexivity). assert (~ (e1 == 0)%Q) by (apply He; left; reflexivity). field. assumption.
Qed.
Lemma chi_ok e y t : length y = length e -> length t = length e -> (forall x, In x e -> ~ (x == 0)%Q) ->
  exists d p, zipq Qminus y t = Ok d /\ zipq Qmult (map invsqr e) (map sqrq d) = Ok p /\ (totalq p == misfit y t e)%Q.
Proof.
  intros Ly Lt He. rewrite zipq_ok by lia. eexists. eexists. split; [reflexivity|].
  rewrite zipq_ok by (rewrite !map_length, combine_length; lia). split; [reflexivity|].
  revert y t Ly Lt. induction e as [|e1 e IH]; intros [|y1 y] [|t1 t] Ly Lt; try discriminate; [reflexivity|].
  cbn [map combine fst snd misfit]. rewrite totalq_cons, IH; [|intros; apply He; right; assumption|cbn in Ly; lia|cbn in Lt; lia].
  rewrite inv_split by (apply He; left; reflexivity). unfold sqrq. assert (~ (e1 == 0)%Q) by (apply He; left; reflexivity). field. assumption.
Qed.
Lemma misfit_quad b : forall e y t, length y = length e -> length t = length e -> (forall x, In x e -> ~ (x == 0)%Q) ->
  (misfit y (scaled b t) e == wsum e y y - 2 * b * wsum e y t + b * b * wsum e t t)%Q.
Proof.
  induction e as [|e1 e IH]; intros [|y1 y] [|t1 t] Ly Lt He; try discriminate; [cbn; ring|].
  cbn [scaled map misfit wsum]. fold (scaled b t). rewrite IH; [|cbn in Ly; lia|cbn in Lt; lia|intros; apply He; right; assumption].
  assert (~ (e1 == 0)%Q) by (apply He; left; reflexivity). field. assumption.
Qed.
Lemma wsum_pos : forall e t, length t = length e -> (forall x, In x e -> ~ (x == 0)%Q) ->
  (0 <= wsum e t t)%Q /\ ((wsum e t t == 0)%Q <-> zero_template t).
Proof.
  induction e as [|e1 e IH]; intros [|t1 t] Lt He; try discriminate.
  - cbn. split; [lra|]. split; [intros _ x []|reflexivity].
  - cbn [wsum]. destruct (IH t) as (P & Z); [cbn in Lt; lia|intros; apply He; right; assumption|].
    assert (N : ~ (e1 == 0)%Q) by (apply He; left; reflexivity). assert (S : (0 <= t1 / e1 * (t1 / e1))%Q) by nra.
    split; [lra|]. split.
    + intros E. assert (E1 : (t1 / e1 == 0)%Q) by nra. assert (E2 : (wsum e t t == 0)%Q) by lra. apply Z in E2. intros x [<-|Hx]; [|auto].
      assert (K : (t1 == t1 / e1 * e1)%Q) by (field; exact N). rewrite K, E1. ring.
    + intros H. assert (E1 : (t1 == 0)%Q) by (apply H; left; reflexivity). assert (E2 : (wsum e t t == 0)%Q) by (apply Z; intros x Hx; apply H; right; exact Hx).
      rewrite E2, E1. field. exact N.
Qed.
Lemma wsum_zero : forall e y t, zero_template t -> (wsum e y t == 0)%Q.
Proof.
  induction e as [|e1 e IH]; intros [|y1 y] [|t1 t] H; cbn [wsum]; try reflexivity.
  rewrite IH by (intros x Hx; apply H; right; exact Hx). rewrite (H t1) by (left; reflexivity). unfold Qdiv. ring.
Qed.

Lemma amp_best e y t s1 s2 : length y = length e -> length t = length e -> (forall x, In x e -> ~ (x == 0)%Q) ->
  (s1 == wsum e y t)%Q -> (s2 == wsum e t t)%Q ->
  (zero_template t /\ ampq s1 s2 = None) \/ (exists a, ~ zero_template t /\ ampq s1 s2 = Some a /\ best_amp y e t a).
Proof.
  intros Ly Lt He E1 E2. destruct (wsum_pos e t Lt He) as (P & Z). unfold ampq. destruct (Qeq_bool s2 0) eqn:E.
  - left. apply Qeq_bool_iff in E. split; [apply Z; lra|reflexivity].
  - right. assert (N : ~ (wsum e t t == 0)%Q). { intros K. apply Qeq_bool_neq in E. apply E. lra. }
    exists (s1 / s2)%Q. split; [intros K; apply N, Z, K|]. split; [reflexivity|].
    intros b. rewrite !misfit_quad by assumption. rewrite E1, E2. set (A := wsum e y y). set (B := wsum e y t) in *. set (C := wsum e t t) in *.
    assert (K : (A - 2 * b * B + b * b * C - (A - 2 * (B / C) * B + B / C * (B / C) * C) == C * ((b - B / C) * (b - B / C)))%Q) by (field; exact N).
    assert (0 <= C * ((b - B / C) * (b - B / C)))%Q by (apply Qmult_le_0_compat; [exact P|generalize (b - B / C)%Q; intros; nra]).
    generalize dependent (C * ((b - B / C) * (b - B / C)))%Q. intros q K ?. clear - K H. lra.
Qed.

Lemma Forall2_at {A B} (P : A -> B -> Prop) l m : Forall2 P l m -> forall k a, nth_error l k = Some a -> exists b, nth_error m k = Some b /\ P a b.
Proof.
  induction 1; intros [|k] a; cbn; try discriminate; [intros [= <-]; eauto|apply IHForall2].
Qed.

Lemma fit_all_ok renorm y e tpl : length y = length e -> (forall t, In t tpl -> length t = length e) -> (forall x, In x e -> ~ (x == 0)%Q) ->
  exists amp chi2, fit_all renorm (map invsqr e) y tpl = Ok (amp, chi2) /\ length amp = length tpl /\ length chi2 = length tpl /\
    forall i t, nth_error tpl i = Some t -> exists a c, nth_error amp i = Some a /\ nth_error chi2 i = Some c /\ one_fit renorm y e t a c.
Proof.
  intros Ly. induction tpl as [|t tpl IH]; intros Lt He.
  - exists [], []. split; [reflexivity|]. split; [reflexivity|]. split; [reflexivity|]. intros [|i] t; discriminate.
  - destruct IH as (amp & chi2 & E & La & Lc & H); [intros; apply Lt; right; assumption|exact He|].
    assert (Ht : length t = length e) by (apply Lt; left; reflexivity).
    destruct (wdot_ok e y t Ly Ht He) as (s1 & E1 & Q1). destruct (wdot_ok e t t Ht Ht He) as (s2 & E2 & Q2).
    unfold fit_all in E |- *. cbn [omapl]. rewrite E1. cbn [obind]. apply obind_Ok in E as (l1 & -> & E). cbn [obind]. rewrite E2. cbn [obind].
    apply obind_Ok in E as (l2 & -> & E). cbn [obind combine map omapl fst snd]. cbv zeta in E. apply obind_Ok in E as (l3 & E3 & [= <- <-]).
    assert (G : exists c, (if renorm then chi2_scaled (map invsqr e) y t (ampq s1 s2) else chi2_plain (map invsqr e) y t) = Ok c /\ one_fit renorm y e t (ampq s1 s2) c).
    { destruct renorm.
      - unfold chi2_scaled. set (a0 := match ampq s1 s2 with Some a => a | None => 0%Q end).
        destruct (chi_ok e y (map (Qmult a0) t) Ly ltac:(rewrite map_length; exact Ht) He) as (d & p & -> & Ep & Qp). cbn [obind]. rewrite Ep. cbn [obind].
        eexists. split; [reflexivity|]. destruct (amp_best e y t s1 s2 Ly Ht He Q1 Q2) as [(Z & Ea)|(a & Z & Ea & B)].
        + left. rewrite Ea. auto.
        + right. exists a, (totalq p). unfold a0 in Qp. rewrite Ea in *. repeat (split; [assumption||reflexivity|]). exact Qp.
      - unfold chi2_plain. destruct (chi_ok e y t Ly Ht He) as (d & p & -> & Ep & Qp). cbn [obind]. rewrite Ep. cbn [obind].
        eexists. split; [reflexivity|]. destruct (amp_best e y t s1 s2 Ly Ht He Q1 Q2) as [(Z & Ea)|(a & Z & Ea & B)].
        + left. rewrite Ea. split; [exact Z|]. split; [reflexivity|]. eauto.
        + right. exists a, (totalq p). rewrite Ea. repeat (split; [assumption||reflexivity|]). exact Qp. }
    destruct G as (c & -> & Gc). cbn [obind]. rewrite E3. cbn [obind].
    eexists (ampq s1 s2 :: _), (c :: l3). split; [reflexivity|]. cbn [length]. split; [f_equal; exact La|]. split; [f_equal; exact Lc|].
    intros [|i] t' Hi; cbn [nth_error] in *.
    + injection Hi as <-. exists (ampq s1 s2), c. auto.
    + apply H. exact Hi.
Qed.
