(* Proofs for C104: the levels of the power law. *)
From Coq Require Import QArith Qround Qfield Lqa Lia.
From Verif Require Import Base IndexModel IndexSpec IndexProofs VecProofs RandModel RandSpec RandProofs.
Local Open Scope nat_scope.

Section Proofs.
Context {T : Type}.
Variable randomu : T -> Q * T.
Variable polar : Q -> Q -> Q -> Q -> Q -> Q * Q.
(* u and v come from the generator *)
Definition given (u : Q) : Prop := exists s, u = fst (randomu s).
Definition on_circle (x0 y0 r0 : Q) (p : Q * Q) : Prop := exists u v, given u /\ given v /\ p = polar x0 y0 r0 u v.

Lemma circle_total x0 y0 r0 s : exists p s', circle_pos randomu polar x0 y0 r0 s = Ok (p, s').
Proof. unfold circle_pos. destruct (randomu s) as [u s1]. destruct (randomu s1) as [v s2]. eauto. Qed.
Lemma circle_given x0 y0 r0 s p s' : circle_pos randomu polar x0 y0 r0 s = Ok (p, s') -> on_circle x0 y0 r0 p.
Proof.
  unfold circle_pos. destruct (randomu s) as [u s1] eqn:E1. destruct (randomu s1) as [v s2] eqn:E2. intros H. injection H as <- _.
  exists u, v. split; [exists s; rewrite E1; reflexivity|]. split; [exists s1; rewrite E2; reflexivity|reflexivity].
Qed.
Lemma drawn_circle x0 y0 r0 s l s' : drawn (circle_pos randomu polar x0 y0 r0) s l s' -> Forall (on_circle x0 y0 r0) l.
Proof. induction 1 as [|s p s1 l s2 E D IH]; constructor; [eapply circle_given; exact E|exact IH]. Qed.
Lemma kept_forall inside l (P : Q * Q -> Prop) : Forall P l -> Forall P (kept inside l) /\ Forall (accepted inside) (kept inside l).
Proof.
  intros F. rewrite !Forall_forall in *. split; intros p I; apply filter_In in I; destruct I as [I J]; auto.
Qed.
Lemma circle_ok n x0 y0 r0 x y inside max_iter s : (0 <= max_iter)%Z ->
  exists good x' y' s', uniform_circle randomu polar n x0 y0 r0 x y inside max_iter s = Ok (good, (x', y'), s') /\
    (good = true -> length x' = n /\ length y' = n /\ Forall (fun p => accepted inside p /\ on_circle x0 y0 r0 p) (combine x' y')).
Proof.
  intros M. unfold uniform_circle. destruct (Nat.eqb_spec n 0) as [->|N].
  - exists true, [], [], s. split; [reflexivity|]. intros _. repeat split. constructor.
  - destruct (rejection_ok _ inside (circle_total x0 y0 r0) x y n max_iter s M) as (good & x' & y' & s' & l & E & D & Lx & Ly & G & _).
    exists good, x', y', s'. split; [exact E|]. intros H. destruct (G H) as (K & _). split; [exact Lx|]. split; [exact Ly|]. rewrite K.
    destruct (kept_forall inside l _ (drawn_circle _ _ _ _ _ _ D)) as [A B]. rewrite Forall_forall in *. intros p I. split; auto.
Qed.

Lemma randomu_n_length n s : length (fst (randomu_n randomu n s)) = n.
Proof. revert s. induction n as [|n IH]; intros s; [reflexivity|]. cbn [randomu_n]. destruct (randomu s) as [u s1]. specialize (IH s1). destruct (randomu_n randomu n s1). cbn [fst length] in *. lia. Qed.
Lemma randomu_n_given n s : Forall given (fst (randomu_n randomu n s)).
Proof. revert s. induction n as [|n IH]; intros s; [constructor|]. cbn [randomu_n]. destruct (randomu s) as [u s1] eqn:E. specialize (IH s1). destruct (randomu_n randomu n s1). cbn [fst] in *. constructor; [exists s; rewrite E; reflexivity|exact IH]. Qed.
Lemma free_ok n x0 y0 r0 s : length (fst (free_circle randomu polar n x0 y0 r0 s)) = n /\ Forall (on_circle x0 y0 r0) (fst (free_circle randomu polar n x0 y0 r0 s)).
Proof.
  unfold free_circle. pose proof (randomu_n_length n s) as L1. pose proof (randomu_n_given n s) as G1. destruct (randomu_n randomu n s) as [th s1].
  pose proof (randomu_n_length n s1) as L2. pose proof (randomu_n_given n s1) as G2. destruct (randomu_n randomu n s1) as [r s2]. cbn [fst] in *. split.
  - rewrite map_length, combine_length. lia.
  - rewrite Forall_forall in *. intros p I. apply in_map_iff in I. destruct I as ((u, v) & <- & I). exists u, v. split; [apply G1; eapply in_combine_l; exact I|]. split; [apply G2; eapply in_combine_r; exact I|reflexivity].
Qed.

Variable in_region : Q -> Q -> Q -> bool.
Lemma fill_nonneg x1 y1 r1 th s : (0 <= fst (get_fill randomu polar in_region x1 y1 r1 th s))%Q.
Proof.
  unfold get_fill. destruct (free_circle randomu polar 200 x1 y1 r1 s) as [p s']. cbn [fst]. apply Qle_shift_div_l; [reflexivity|]. rewrite Qmult_0_l. change 0%Q with (inject_Z 0). rewrite <- Zle_Qle. lia.
Qed.
Lemma fills_ok r1 th : forall cells s, length (fst (fills randomu polar in_region r1 th cells s)) = length cells /\ Forall (fun f => (0 <= f)%Q) (fst (fills randomu polar in_region r1 th cells s)).
Proof.
  induction cells as [|c cells IH]; intros s; [split; [reflexivity|constructor]|]. cbn [fills]. pose proof (fill_nonneg (fst c) (snd c) r1 th s) as F. destruct (get_fill randomu polar in_region (fst c) (snd c) r1 th s) as [f s1].
  specialize (IH s1). destruct (fills randomu polar in_region r1 th cells s1) as [l s2]. cbn [fst length] in *. destruct IH as [L A]. split; [lia|constructor; assumption].
Qed.

(* sums *)
Lemma fold_add l : forall a, fold_left Nat.add l a = a + whole l.
Proof. induction l as [|n l IH]; intros a; cbn [fold_left whole fold_right]; [lia|]. rewrite IH. unfold whole. lia. Qed.
Lemma qsum_total l : forall a, (fold_left Qplus l a == a + RandSpec.total l)%Q.
Proof. induction l as [|n l IH]; intros a; cbn [fold_left RandSpec.total fold_right]; [ring|]. rewrite IH. unfold RandSpec.total. ring. Qed.
Lemma total_scale c l : (RandSpec.total (map (fun f => c * f)%Q l) == c * RandSpec.total l)%Q.
Proof. induction l as [|n l IH]; cbn [map RandSpec.total fold_right]; [ring|]. unfold RandSpec.total in IH. rewrite IH. ring. Qed.
Lemma total_nonneg l : Forall (fun f => (0 <= f)%Q) l -> (0 <= RandSpec.total l)%Q.
Proof. induction 1 as [|f l H _ IH]; cbn [RandSpec.total fold_right]; [lra|]. unfold RandSpec.total in IH. lra. Qed.
Lemma total_ext {A} (f g : A -> Q) l : (forall a, In a l -> (f a == g a)%Q) -> (RandSpec.total (map f l) == RandSpec.total (map g l))%Q.
Proof. induction l as [|n l IH]; intros H; cbn [map RandSpec.total fold_right]; [reflexivity|]. rewrite (H n (or_introl eq_refl)). unfold RandSpec.total in IH. rewrite IH; [reflexivity|]. intros a I. apply H. right. exact I. Qed.
Lemma inject_nat_add a b : (inject_Z (Z.of_nat (a + b)) == inject_Z (Z.of_nat a) + inject_Z (Z.of_nat b))%Q.
Proof. rewrite Nat2Z.inj_add, inject_Z_plus. reflexivity. Qed.
Lemma floor_le w : (0 <= w)%Q -> (inject_Z (Z.of_nat (Z.to_nat (Qfloor w))) <= w)%Q /\ (w < inject_Z (Z.of_nat (Z.to_nat (Qfloor w))) + 1)%Q.
Proof.
  intros H. assert (0 <= Qfloor w)%Z by (change 0%Z with (Qfloor (inject_Z 0)); apply Qfloor_resp_le; exact H). rewrite Z2Nat.id by assumption. split; [apply Qfloor_le|]. pose proof (Qlt_floor w) as L. rewrite inject_Z_plus in L. exact L.
Qed.
Lemma floors_le l : Forall (fun w => (0 <= w)%Q) l -> (inject_Z (Z.of_nat (whole (map (fun w => Z.to_nat (Qfloor w)) l))) <= RandSpec.total l)%Q.
Proof.
  induction 1 as [|w l H _ IH]; cbn [map whole RandSpec.total fold_right]; [apply Qle_refl|]. fold (whole (map (fun w => Z.to_nat (Qfloor w)) l)). fold (RandSpec.total l). rewrite inject_nat_add. destruct (floor_le w H). lra.
Qed.

Lemma whole_cons n l : whole (n :: l) = n + whole l.
Proof. reflexivity. Qed.
(* the numbers of the cells *)
Definition bumped (a b : nat * Q) : Prop := b = a \/ (b = (fst a + 1, 0%Q) /\ ~ (snd a == 0)%Q).
Lemma bumped_refl l : Forall2 bumped l l.
Proof. induction l; constructor; [left; reflexivity|assumption]. Qed.
Lemma bumped_trans a b c : bumped a b -> bumped b c -> bumped a c.
Proof. intros [->|[-> N]] H2; [exact H2|]. destruct H2 as [->|[_ N2]]; [right; auto|]. exfalso. apply N2. reflexivity. Qed.
Lemma bumped_trans2 l1 : forall l2 l3, Forall2 bumped l1 l2 -> Forall2 bumped l2 l3 -> Forall2 bumped l1 l3.
Proof. induction l1 as [|a l1 IH]; intros l2 l3 H1 H2; inversion H1; subst; inversion H2; subst; constructor; [eapply bumped_trans; eauto|eauto]. Qed.
Lemma assign_ok : forall cells miss s l m s', 0 < miss -> assign randomu miss cells s = (l, m, s') ->
  Forall2 bumped cells l /\ whole (map fst l) + m = whole (map fst cells) + miss.
Proof.
  induction cells as [|[n d] cells IH]; intros miss s l m s' H E; cbn [assign] in E.
  - injection E as <- <- <-. split; [constructor|reflexivity].
  - destruct (Qeq_bool d 0) eqn:D.
    + destruct (assign randomu miss cells s) as [[l1 m1] s1] eqn:A. injection E as <- <- <-. destruct (IH _ _ _ _ _ H A) as [F W]. split; [constructor; [left; reflexivity|exact F]|]. cbn [map fst] in *. rewrite !whole_cons. lia.
    + destruct (randomu s) as [u s0]. destruct (Qle_bool d u).
      * destruct (assign randomu miss cells s0) as [[l1 m1] s1] eqn:A. injection E as <- <- <-. destruct (IH _ _ _ _ _ H A) as [F W]. split; [constructor; [left; reflexivity|exact F]|]. cbn [map fst] in *. rewrite !whole_cons. lia.
      * assert (N : ~ (d == 0)%Q) by (intros K; apply Qeq_bool_iff in K; congruence).
        destruct (miss - 1) as [|m0] eqn:M.
        -- injection E as <- <- <-. split; [constructor; [right; cbn [fst snd]; auto|apply bumped_refl]|]. cbn [map fst]. rewrite !whole_cons. lia.
        -- destruct (assign randomu (S m0) cells s0) as [[l1 m1] s1] eqn:A. injection E as <- <- <-. destruct (IH _ _ _ _ _ (Nat.lt_0_succ m0) A) as [F W]. split; [constructor; [right; cbn [fst snd]; auto|exact F]|]. cbn [map fst] in *. rewrite !whole_cons. lia.
Qed.
Lemma reassign_ok : forall iters cells miss s l m s', reassign randomu iters miss cells s = (l, m, s') ->
  Forall2 bumped cells l /\ whole (map fst l) + m = whole (map fst cells) + miss.
Proof.
  induction iters as [|iters IH]; intros cells miss s l m s' E; cbn [reassign] in E.
  - destruct (Nat.eqb_spec miss 0); injection E as <- <- <-; (split; [apply bumped_refl|lia]).
  - destruct (Nat.eqb_spec miss 0); [injection E as <- <- <-; split; [apply bumped_refl|lia]|].
    destruct (assign randomu miss cells s) as [[c1 m1] s1] eqn:A. destruct (assign_ok cells miss s _ _ _ ltac:(lia) A) as [F W]. destruct (IH _ _ _ _ _ _ E) as [F2 W2]. split; [eapply bumped_trans2; eauto|lia].
Qed.

(* new positions: a group for each cell *)
Definition group (r1 rth : Q) (c : (Q * Q) * nat) (g : list (Q * Q)) : Prop :=
  length g = snd c /\ Forall (fun p => in_region (fst p) (snd p) rth = true /\ on_circle (fst (fst c)) (snd (fst c)) r1 p) g.
Lemma populate_ok r1 rth : forall cells s, exists good new s', populate randomu polar in_region r1 rth cells s = Ok (good, new, s') /\
  (good = true -> exists groups, new = concat groups /\ Forall2 (group r1 rth) cells groups).
Proof.
  induction cells as [|[[cx cy] n] cells IH]; intros s; cbn [populate].
  - exists true, [], s. split; [reflexivity|]. intros _. exists []. split; [reflexivity|constructor].
  - destruct (Nat.eqb_spec n 0) as [->|N].
    + destruct (IH s) as (good & new & s' & E & G). exists good, new, s'. split; [exact E|]. intros H. destruct (G H) as (gs & -> & F). exists ([] :: gs). split; [reflexivity|]. constructor; [split; [reflexivity|constructor]|exact F].
    + unfold genpos. destruct (circle_ok n cx cy r1 [] [] (fun x y => in_region x y rth) 1000 s ltac:(lia)) as (good & x & y & s1 & E & G). rewrite E. cbn [obind].
      destruct good; [|exists false, [], s1; split; [reflexivity|discriminate]].
      destruct (G eq_refl) as (Lx & Ly & F). destruct (IH s1) as (good & new & s' & E' & G'). rewrite E'. cbn [obind]. exists good, (combine x y ++ new), s'. split; [reflexivity|]. intros H. destruct (G' H) as (gs & -> & Fs).
      exists (combine x y :: gs). split; [reflexivity|]. constructor; [|exact Fs]. split; [cbn [snd]; rewrite combine_length; lia|]. exact F.
Qed.
Lemma groups_length r1 rth : forall cells groups, Forall2 (group r1 rth) cells groups -> length (concat groups) = whole (map snd cells).
Proof. induction 1 as [|c g cells groups [H _] _ IH]; [reflexivity|]. cbn [concat map whole fold_right]. rewrite app_length, H, IH. reflexivity. Qed.
Lemma groups_in r1 rth : forall cells groups, Forall2 (group r1 rth) cells groups -> Forall (fun p => in_region (fst p) (snd p) rth = true) (concat groups).
Proof. induction 1 as [|c g cells groups [_ H] _ IH]; [constructor|]. cbn [concat]. apply Forall_app. split; [|exact IH]. eapply Forall_impl; [|exact H]. cbn. tauto. Qed.

(* one level: the counts are the fair shares, rounded down or up *)
Definition fair (eta : nat) (mean f : Q) (n : nat) : Prop :=
  (inject_Z (Z.of_nat n) < inject_Z (Z.of_nat eta) * f / mean + 1)%Q /\ (inject_Z (Z.of_nat eta) * f / mean < inject_Z (Z.of_nat n) + 1)%Q.
Lemma level_ok eta max_iter r1 rth cells s : 
  let fill := fst (fills randomu polar in_region r1 rth cells s) in
  let mean := (RandSpec.total fill / inject_Z (Z.of_nat (length cells)))%Q in
  (cells <> [] /\ (RandSpec.total fill == 0)%Q /\ level randomu polar in_region eta max_iter r1 rth cells s = CheckFail) \/
  exists good new s', level randomu polar in_region eta max_iter r1 rth cells s = Ok (good, new, s') /\
    (good = true -> exists counts groups, new = concat groups /\ Forall2 (group r1 rth) (combine cells counts) groups /\ Forall2 (fair eta mean) fill counts /\ whole counts = eta * length cells).
Proof.
  intros fill0 mean0. unfold level. destruct (fills_ok r1 rth cells s) as [Lf Pf]. fold fill0 in Lf, Pf. destruct (fills randomu polar in_region r1 rth cells s) as [fill s1] eqn:Ef. cbn [fst] in fill0. subst fill0.
  rewrite Lf. set (mfill := (qsum fill / inject_Z (Z.of_nat (length cells)))%Q).
  assert (Em : (mfill == mean0)%Q). { unfold mfill, mean0. unfold qsum. rewrite qsum_total. rewrite Qplus_0_l. reflexivity. }
  destruct cells as [|c cells].
  - right. destruct fill; [|discriminate]. cbn [check obind map combine length fold_left]. rewrite Nat.mul_0_r. cbn [Z.of_nat Z.sub Z.add Z.opp Z.ltb Z.compare Z.to_nat].
    assert (R : reassign randomu max_iter 0 [] s1 = ([], 0, s1)) by (destruct max_iter; reflexivity). rewrite R. cbn [Nat.eqb map combine populate]. exists true, [], s1. split; [reflexivity|]. intros _. exists [], []. repeat split; constructor.
  - set (n := length (c :: cells)) in *. assert (Np : 0 < n) by (unfold n; cbn; lia). clearbody n. assert (Nq : (0 < inject_Z (Z.of_nat n))%Q) by (change 0%Q with (inject_Z 0); rewrite <- Zlt_Qlt; lia).
    replace (match fill with [] => true | _ :: _ => negb (Qeq_bool mfill 0) end) with (negb (Qeq_bool mfill 0)) by (clearbody mfill; clear mean0 Em; destruct fill; [cbn in Lf; lia|reflexivity]).
    destruct (Qeq_bool mfill 0) eqn:Z0.
    + left. split; [discriminate|]. split; [|reflexivity]. apply Qeq_bool_iff in Z0. rewrite Em in Z0. unfold mean0 in Z0.
      assert (H : (RandSpec.total fill == RandSpec.total fill / inject_Z (Z.of_nat n) * inject_Z (Z.of_nat n))%Q) by (field; lra). rewrite H, Z0. ring.
    + right. assert (Mn : ~ (mfill == 0)%Q) by (intros K; apply Qeq_bool_iff in K; congruence). cbn [negb check obind].
      assert (Mp : (0 < mfill)%Q).
      { destruct (Qlt_le_dec 0 mfill) as [|K]; [assumption|exfalso]. apply Mn. apply Qle_antisym; [exact K|]. rewrite Em. unfold mean0. apply Qle_shift_div_l; [exact Nq|]. rewrite Qmult_0_l. apply total_nonneg, Pf. }
      set (want := map (fun f => inject_Z (Z.of_nat eta) * (f / mfill))%Q fill).
      assert (Pw : Forall (fun w => (0 <= w)%Q) want).
      { rewrite Forall_forall in *. intros w I. unfold want in I. apply in_map_iff in I. destruct I as (f & <- & I). apply Qmult_le_0_compat; [change 0%Q with (inject_Z 0); rewrite <- Zle_Qle; lia|]. apply Qle_shift_div_l; [exact Mp|]. rewrite Qmult_0_l. apply Pf, I. }
      assert (Tw : (RandSpec.total want == inject_Z (Z.of_nat (eta * n)))%Q).
      { unfold want. rewrite (total_ext _ (fun f => inject_Z (Z.of_nat eta) / mfill * f)%Q) by (intros a _; field; exact Mn). rewrite total_scale, Em. unfold mean0. rewrite Nat2Z.inj_mul, inject_Z_mult.
        assert (Tn : ~ (RandSpec.total fill == 0)%Q). { intros K. apply Mn. rewrite Em. unfold mean0. rewrite K. unfold Qdiv. ring. }
        field. split; [lra|exact Tn]. }
      assert (Le : whole (map (fun w => Z.to_nat (Qfloor w)) want) <= eta * n).
      { pose proof (floors_le want Pw) as F. rewrite Tw in F. rewrite <- Zle_Qle in F. lia. }
      rewrite fold_add. destruct (Z.ltb_spec (Z.of_nat (eta * n) - Z.of_nat (0 + whole (map (fun w => Z.to_nat (Qfloor w)) want))) 0) as [K|_]; [lia|].
      set (start := combine (map (fun w => Z.to_nat (Qfloor w)) want) (map (fun w => (w - inject_Z (Z.of_nat (Z.to_nat (Qfloor w))))%Q) want)).
      set (miss0 := Z.to_nat (Z.of_nat (eta * n) - Z.of_nat (0 + whole (map (fun w => Z.to_nat (Qfloor w)) want)))). assert (Em0 : miss0 = eta * n - whole (map (fun w => Z.to_nat (Qfloor w)) want)) by (unfold miss0; lia). clearbody miss0.
      destruct (reassign randomu max_iter miss0 start s1) as [[ng miss] s2] eqn:R. destruct (reassign_ok _ _ _ _ _ _ _ R) as [B W].
      destruct (Nat.eqb_spec miss 0) as [->|N0]; [|exists false, [], s2; split; [reflexivity|discriminate]].
      destruct (populate_ok r1 rth (combine (c :: cells) (map fst ng)) s2) as (good & new & s3 & E & G). exists good, new, s3. split; [exact E|]. intros H. destruct (G H) as (groups & -> & F).
      exists (map fst ng), groups. split; [reflexivity|]. split; [exact F|]. assert (Fs : map fst start = map (fun w => Z.to_nat (Qfloor w)) want).
      { unfold start. clear. induction want as [|w want IH]; [reflexivity|]. cbn. rewrite IH. reflexivity. }
      split; [|rewrite Fs in W; lia].
      (* fair shares *)
      assert (A : Forall2 (fun w n => (inject_Z (Z.of_nat n) < w + 1)%Q /\ (w < inject_Z (Z.of_nat n) + 1)%Q) want (map fst ng)).
      { clear - Pw B. unfold start in B. revert ng B. induction Pw as [|w want H _ IH]; intros ng B; cbn [map combine] in B; inversion B; subst; [constructor|]. cbn [map]. constructor; [|apply IH; assumption].
        destruct (floor_le w H) as [K1 K2]. destruct H2 as [->|[-> N]]; cbn [fst snd] in *; [split; lra|]. rewrite inject_nat_add. change (inject_Z (Z.of_nat 1)) with 1%Q. split; [|lra].
        assert (inject_Z (Z.of_nat (Z.to_nat (Qfloor w))) < w)%Q; [|lra]. apply Qle_lteq in K1. destruct K1 as [K1|K1]; [exact K1|]. exfalso. apply N. lra. }
      clear - A Em Mn. unfold want in A. clear want. clearbody mfill mean0. revert A. generalize (map fst ng). induction fill as [|f fill IH]; intros l A; inversion A; subst; constructor; [|apply IH; assumption].
      unfold fair. assert (Ef : (inject_Z (Z.of_nat eta) * f / mean0 == inject_Z (Z.of_nat eta) * (f / mfill))%Q) by (rewrite <- Em; field; exact Mn). rewrite Ef. assumption.
Qed.

Lemma fair_length eta mean fill counts : Forall2 (fair eta mean) fill counts -> length fill = length counts.
Proof. induction 1; cbn; congruence. Qed.
Lemma combine_snd {A B} : forall (a : list A) (b : list B), length a = length b -> map snd (combine a b) = b.
Proof. induction a as [|x a IH]; intros [|y b] L; try discriminate; [reflexivity|]. cbn. rewrite IH by (cbn in L; lia). reflexivity. Qed.
(* the number of positions after a level, and that they are in the region *)
Lemma level_count eta max_iter r1 rth cells s good new s' : level randomu polar in_region eta max_iter r1 rth cells s = Ok (good, new, s') -> good = true ->
  length new = eta * length cells /\ Forall (fun p => in_region (fst p) (snd p) rth = true) new.
Proof.
  intros E H. destruct (level_ok eta max_iter r1 rth cells s) as [(_ & _ & K)|(g & n & s2 & K & G)]; [congruence|]. rewrite E in K. injection K as <- <- <-. destruct (G H) as (counts & groups & -> & F & Fa & W).
  split; [|eapply groups_in; exact F]. rewrite (groups_length _ _ _ _ F), combine_snd, W; [reflexivity|]. rewrite <- (fair_length _ _ _ _ Fa). destruct (fills_ok r1 rth cells s) as [L _]. rewrite L. reflexivity.
Qed.
Lemma loop_count eta eta_end levels max_iter lambda : forall ls r1 cells s good new s', levels_loop randomu polar in_region eta eta_end levels max_iter lambda ls r1 cells s = Ok (good, new, s') -> good = true ->
  length new = fold_right (fun l n => (if (wrap64 (l + 2) =? levels)%Z then eta_end else eta) * n) (length cells) ls /\
  (forall l, nth_error ls (length ls - 1) = Some l -> (wrap64 (l + 2) = levels) -> Forall (fun p => in_region (fst p) (snd p) 0%Q = true) new) /\ (ls = [] -> new = cells).
Proof.
  induction ls as [|l ls IH]; intros r1 cells s good new s' E H.
  - cbn [levels_loop] in E. injection E as <- <- <-. split; [reflexivity|]. split; [discriminate|reflexivity].
  - cbn [levels_loop] in E. set (la := (wrap64 (l + 2) =? levels)%Z) in *. 
    set (eta' := if la then eta_end else eta) in *. set (rth := if la then 0%Q else ((4 # 5) * (r1 / lambda) / lambda)%Q) in *.
    destruct (level randomu polar in_region eta' max_iter (r1 / lambda) rth cells s) as [[[g n] s1]| | | |] eqn:El; cbn [obind] in E; try discriminate.
    destruct g; [|injection E as <- _ _; discriminate]. destruct (level_count _ _ _ _ _ _ _ _ _ El eq_refl) as [L1 F1].
    destruct (IH _ _ _ _ _ _ E H) as (L2 & F2 & F3). split; [|split; [|discriminate]].
    + rewrite L2. cbn [fold_right]. fold la. fold eta'. clearbody eta'. rewrite L1. clear - ls. induction ls as [|m ls IH]; [reflexivity|]. cbn [fold_right]. rewrite IH. destruct (wrap64 (m + 2) =? levels)%Z; lia.
    + intros m Hm Hw. destruct ls as [|m' ls].
      * cbn in Hm. injection Hm as <-. rewrite (F3 eq_refl). assert (Ela : la = true) by (apply Z.eqb_eq; exact Hw). unfold rth in F1. rewrite Ela in F1. exact F1.
      * apply (F2 m); [|exact Hw]. replace (length (l :: m' :: ls) - 1) with (S (length (m' :: ls) - 1)) in Hm by (cbn; lia). exact Hm.
Qed.
Lemma base_level_ok eta r : forall cells s, length (fst (base_level randomu polar eta r cells s)) = eta * length cells.
Proof.
  induction cells as [|c cells IH]; intros s; cbn [base_level]; [cbn; lia|]. destruct (free_ok eta (fst c) (snd c) r s) as [L _]. destruct (free_circle randomu polar eta (fst c) (snd c) r s) as [new s1].
  specialize (IH s1). destruct (base_level randomu polar eta r cells s1) as [rest s2]. cbn [fst length] in *. rewrite app_length. lia.
Qed.
Lemma base_levels_ok eta lambda : forall levels r cells s, length (fst (base_levels randomu polar levels eta lambda r cells s)) = eta ^ levels * length cells.
Proof.
  induction levels as [|levels IH]; intros r cells s; cbn [base_levels]; [cbn; lia|]. pose proof (base_level_ok eta r cells s) as L. destruct (base_level randomu polar eta r cells s) as [new s1]. rewrite IH. cbn [fst] in L. rewrite L. cbn [Nat.pow]. lia.
Qed.
End Proofs.
