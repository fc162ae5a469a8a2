From Coq Require Import ZifyBool QArith Qround Lqa.
From Verif Require Import Base IndexProofs VecModel VecProofs VecProofs2
  OrderModel OrderSpec OrderProofs ReduceModel ReduceSpec ReduceProofs ReduceProofs2.
Local Open Scope nat_scope.

(* ---- weighted percentile ---- *)
Definition qs (f : nat -> Q) (l : list nat) : Q := qsum (map f l).
Lemma qs_cons f x l : qs f (x :: l) = (f x + qs f l)%Q.
Proof. reflexivity. Qed.
Lemma qs_app f a b : (qs f (a ++ b) == qs f a + qs f b)%Q.
Proof.
  induction a as [|x a IH]; cbn [app].
  - change (qs f []) with 0%Q. ring.
  - rewrite !qs_cons, IH. ring.
Qed.
Lemma qs_perm f a b : Permutation a b -> (qs f a == qs f b)%Q.
Proof.
  intros H; induction H as [|x a b H IH|x y a|a b c H1 IH1 H2 IH2].
  - reflexivity.
  - rewrite !qs_cons, IH. reflexivity.
  - rewrite !qs_cons. ring.
  - rewrite IH1. exact IH2.
Qed.
Lemma qs_le f g l : (forall i, In i l -> (f i <= g i)%Q) -> (qs f l <= qs g l)%Q.
Proof.
  induction l as [|x l IH]; intros H; [apply Qle_refl|]. rewrite !qs_cons.
  apply Qplus_le_compat; [apply H; left; reflexivity|]. apply IH. intros i Hi. apply H. right; exact Hi.
Qed.
Lemma qs_ext f g l : (forall i, In i l -> f i = g i) -> qs f l = qs g l.
Proof. intros H. unfold qs. f_equal. apply map_ext_in. exact H. Qed.
Lemma qs_zero f l : (forall i, In i l -> (f i == 0)%Q) -> (qs f l == 0)%Q.
Proof.
  induction l as [|x l IH]; intros H; [reflexivity|]. rewrite qs_cons, (H x), IH; [reflexivity| |left; reflexivity].
  intros i Hi. apply H. right; exact Hi.
Qed.

Lemma map_nth_seq A B (g : option A -> B) (l : list A) :
  map (fun i => g (nth_error l i)) (seq 0 (length l)) = map (fun x => g (Some x)) l.
Proof.
  induction l as [|x l IH]; [reflexivity|]. cbn [length seq map]. f_equal.
  rewrite <- seq_shift, map_map. rewrite <- IH. apply map_ext. intros i. reflexivity.
Qed.

Lemma nth_combine A B (a : list A) (b : list B) i : nth_error (combine a b) i =
  match nth_error a i, nth_error b i with Some x, Some y => Some (x, y) | _, _ => None end.
Proof.
  revert b i; induction a as [|x a IH]; intros [|y b] [|i]; cbn [combine nth_error]; auto.
  - destruct (nth_error a i); reflexivity.
Qed.

(* weight of position i among the values accepted by p *)
Definition wat (p : Z -> bool) (v : list fnum) (w : list (option Q)) (i : nat) : Q :=
  match nth_error (combine v w) i with
  | Some (Num z, Some q) => if p z then q else 0%Q
  | _ => 0%Q
  end.
Definition every (z : Z) : bool := true.

Lemma weight_of_qs p v w : length w = length v -> weight_of p v w = qs (wat p v w) (seq 0 (length v)).
Proof.
  intros L. unfold weight_of, qs. f_equal.
  replace (length v) with (length (combine v w)) by (rewrite combine_length; lia).
  unfold wat. rewrite (map_nth_seq _ _ (fun o => match o with Some (Num z, Some q) => if p z then q else 0%Q | _ => 0%Q end)).
  apply map_ext. intros [[|z] [q|]]; reflexivity.
Qed.

Lemma total_weight v w : length w = length v -> forall l t, (forall i, In i l -> i < length v) ->
  exists r, ofold (fun t i => x <- oget v i ;; y <- oget w i ;;
            match y with
            | Some q => Ok (if is_nan x then t else Qplus t q)
            | None => Ok t
            end) l t = Ok r /\ (r == t + qs (wat every v w) l)%Q.
Proof.
  intros L. induction l as [|i l IH]; intros t H.
  - exists t. split; [reflexivity|]. change (qs (wat every v w) []) with 0%Q. ring.
  - cbn [ofold]. assert (Hi : i < length v) by (apply H; left; reflexivity).
    destruct (oget_in _ v i Hi) as (x & E1 & N1). destruct (oget_in _ w i ltac:(lia)) as (y & E2 & N2).
    rewrite E1. cbn [obind]. rewrite E2. cbn [obind].
    assert (Wi : wat every v w i = match x, y with Num _, Some q => q | _, _ => 0%Q end).
    { unfold wat. rewrite nth_combine, N1, N2. destruct x, y; reflexivity. }
    destruct y as [q|]; cbn [obind].
    + destruct (IH (if is_nan x then t else (t + q)%Q)) as (r & E & S); [intros; apply H; right; assumption|].
      exists r. split; [exact E|]. rewrite S, qs_cons, Wi. destruct x; cbn [is_nan]; ring.
    + destruct (IH t) as (r & E & S); [intros; apply H; right; assumption|].
      exists r. split; [exact E|]. rewrite S, qs_cons, Wi. destruct x; ring.
Qed.

Section Loop.
Variables (v : list fnum) (w : list (option Q)) (target : Q).
Hypothesis L : length w = length v.
Hypothesis Pos : forall q, In (Some q) w -> (0 <= q)%Q.

Lemma wat_nonneg p i : (0 <= wat p v w i)%Q.
Proof.
  unfold wat. rewrite nth_combine. destruct (nth_error v i) as [[|z]|]; try apply Qle_refl.
  - destruct (nth_error w i); apply Qle_refl.
  - destruct (nth_error w i) as [[q|]|] eqn:E; try apply Qle_refl.
    destruct (p z); [|apply Qle_refl]. apply Pos. eapply nth_error_In; exact E.
Qed.
Lemma wat_le p i : (wat p v w i <= wat every v w i)%Q.
Proof.
  pose proof (wat_nonneg every i) as H. unfold wat in *. rewrite nth_combine in *.
  destruct (nth_error v i) as [[|z]|], (nth_error w i) as [[q|]|]; try apply Qle_refl. destruct (p z); [apply Qle_refl|exact H].
Qed.
Lemma wat_val p i z : nth_error v i = Some (Num z) ->
  (p z = true -> wat p v w i = wat every v w i) /\ (p z = false -> wat p v w i = 0%Q).
Proof.
  intros E. unfold wat. rewrite nth_combine, E. destruct (nth_error w i) as [[q|]|]; auto.
  cbn [every]. destruct (p z); split; congruence.
Qed.
Lemma wat_nan p i : nth_error v i = Some NaN -> wat p v w i = 0%Q.
Proof. intros E. unfold wat. rewrite nth_combine, E. destruct (nth_error w i); reflexivity. Qed.

Lemma wp_loop_ok : forall rest done tot,
  done ++ rest = sort fl_less v ->
  (tot == qs (wat every v w) done)%Q -> (tot < target)%Q -> (target <= qs (wat every v w) (done ++ rest))%Q ->
  exists z, wp_loop v w target tot rest = Ok (Num z) /\ In (Num z) v /\
    (weight_of (fun y => y <? z)%Z v w < target)%Q /\ (target <= weight_of (fun y => y <=? z)%Z v w)%Q.
Proof.
  induction rest as [|j rest IH]; intros done tot D T H1 H2.
  - exfalso. rewrite app_nil_r in H2. lra.
  - pose proof (sort_perm fl_less v) as P. rewrite <- D in P.
    assert (Hj : j < length v).
    { assert (In j (seq 0 (length v))) as I.
      { eapply Permutation_in; [exact P|]. apply in_or_app. right. left. reflexivity. }
      apply in_seq in I. lia. }
    destruct (oget_in _ v j Hj) as (x & E1 & N1). destruct (oget_in _ w j ltac:(lia)) as (y & E2 & N2).
    cbn [wp_loop]. rewrite E1. cbn [obind]. rewrite E2. cbn [obind].
    assert (Wi : wat every v w j = match x, y with Num _, Some q => q | _, _ => 0%Q end).
    { unfold wat. rewrite nth_combine, N1, N2. destruct x, y; reflexivity. }
    assert (D' : (done ++ [j]) ++ rest = sort fl_less v) by (rewrite <- app_assoc; exact D).
    assert (H2' : (target <= qs (wat every v w) ((done ++ [j]) ++ rest))%Q) by (rewrite <- app_assoc; exact H2).
    assert (Q1 : (qs (wat every v w) (done ++ [j]) == qs (wat every v w) done + wat every v w j)%Q).
    { rewrite qs_app, qs_cons. change (qs (wat every v w) []) with 0%Q. ring. }
    destruct y as [q|].
    2:{ apply (IH (done ++ [j])); auto. rewrite Q1, Wi, T. destruct x; ring. }
    destruct x as [|z]; cbn [is_nan].
    { apply (IH (done ++ [j])); auto. rewrite Q1, Wi, T. ring. }
    destruct (Qle_bool target (tot + q)) eqn:EQ.
    2:{ apply (IH (done ++ [j])); auto; [rewrite Q1, Wi, T; reflexivity|]. apply Qle_bool_false in EQ. exact EQ. }
    apply Qle_bool_iff in EQ. exists z. split; [reflexivity|].
    split; [eapply nth_error_In; exact N1|].
    destruct (sort_stable fl_less fl_order v) as [_ O]. rewrite <- D in O.
    assert (NJ : nth_error (done ++ j :: rest) (length done) = Some j).
    { rewrite nth_error_app2 by lia. rewrite Nat.sub_diag. reflexivity. }
    assert (Val : forall i, In i (done ++ j :: rest) -> exists a, nth_error v i = Some a).
    { intros i Hi. eapply Permutation_in in Hi; [|exact P]. apply in_seq in Hi.
      destruct (nth_error v i) eqn:E; [eauto|]. apply nth_error_None in E. lia. }
    assert (Before : forall i, In i done -> exists a, nth_error v i = Some (Num a) /\ (a <= z)%Z).
    { intros i Hi. destruct (Val i) as (a & Ea); [apply in_or_app; left; exact Hi|].
      apply In_nth_error in Hi as (k & Hk). assert (k < length done) by (apply nth_error_Some; congruence).
      destruct (O k (length done) i j a (Num z)) as [C _]; auto.
      { rewrite nth_error_app1 by lia. exact Hk. }
      destruct a as [|a]; [discriminate|]. exists a. split; [exact Ea|]. cbn in C. lia. }
    assert (After : forall i, In i (j :: rest) -> forall a, nth_error v i = Some (Num a) -> (z <= a)%Z).
    { intros i [<-|Hi] a Ea; [rewrite N1 in Ea; injection Ea as ->; lia|].
      apply In_nth_error in Hi as (k & Hk).
      destruct (O (length done) (length done + S k) j i (Num z) (Num a)) as [C _]; auto; [lia| |].
      { rewrite nth_error_app2 by lia. replace (length done + S k - length done) with (S k) by lia. exact Hk. }
      cbn in C. lia. }
    rewrite !weight_of_qs by exact L. rewrite <- !(qs_perm _ _ _ P).
    split.
    + apply Qle_lt_trans with (qs (wat every v w) done); [|rewrite <- T; exact H1].
      rewrite qs_app. assert (Z0 : (qs (wat (fun y => y <? z)%Z v w) (j :: rest) == 0)%Q).
      { apply qs_zero. intros i Hi. destruct (Val i) as (a & Ea); [apply in_or_app; right; exact Hi|].
        destruct a as [|a]; [rewrite wat_nan by exact Ea; reflexivity|].
        rewrite (proj2 (wat_val (fun y => y <? z)%Z i a Ea)); [reflexivity|].
        pose proof (After i Hi a Ea). lia. }
      rewrite Z0. rewrite Qplus_0_r. apply qs_le. intros i _. apply wat_le.
    + apply Qle_trans with (tot + q)%Q; [exact EQ|].
      replace (done ++ j :: rest) with ((done ++ [j]) ++ rest) by (rewrite <- app_assoc; reflexivity).
      rewrite qs_app. setoid_replace (tot + q)%Q with (qs (wat (fun y => y <=? z)%Z v w) (done ++ [j]) + 0)%Q.
      * apply Qplus_le_compat; [apply Qle_refl|].
        assert (Z0 : (qs (fun _ => 0%Q) rest == 0)%Q) by (apply qs_zero; reflexivity).
        rewrite <- Z0. apply qs_le. intros i _. apply wat_nonneg.
      * rewrite Qplus_0_r. rewrite (qs_ext _ (wat every v w)); [rewrite Q1, Wi, T; reflexivity|].
        intros i Hi. apply in_app_or in Hi as [Hi|[<-|[]]].
        -- destruct (Before i Hi) as (a & Ea & La). apply (wat_val _ i a Ea). lia.
        -- apply (wat_val _ j z N1). lia.
Qed.
End Loop.

Lemma weighted_percentile_ok dims v w p : v <> [] -> length w = length v ->
  (forall q, In (Some q) w -> (0 <= q)%Q) -> (0 < p <= 1)%Q -> (0 < weight_of (fun _ => true) v w)%Q ->
  exists z, weighted_percentile dims dims v w p = Ok (Num z) /\ In (Num z) v /\
    (weight_of (fun y => y <? z)%Z v w < p * weight_of (fun _ => true) v w)%Q /\
    (p * weight_of (fun _ => true) v w <= weight_of (fun y => y <=? z)%Z v w)%Q.
Proof.
  intros Hv L Pos [P1 P2] Tw. unfold weighted_percentile.
  destruct (Nat.eqb_spec (length v) 0) as [C|C]; [destruct v; [congruence|discriminate]|]. cbn [negb check obind].
  destruct (list_eq_dec Nat.eq_dec dims dims) as [_|C2]; [|congruence]. cbn [check obind].
  destruct (total_weight v w L (seq 0 (length v)) 0%Q) as (r & E & S).
  { intros i Hi. apply in_seq in Hi. lia. }
  rewrite E. cbn [obind]. pose proof (weight_of_qs (fun _ => true) v w L) as WQ.
  change (wat (fun _ => true) v w) with (wat every v w) in WQ. rewrite <- WQ in S. rewrite Qplus_0_l in S.
  set (tw := weight_of (fun _ => true) v w) in *.
  destruct (Qeq_bool r 0) eqn:E0; [apply Qeq_bool_iff in E0; exfalso; lra|].
  assert (B1 : (0 < p * tw)%Q) by (apply Qmult_lt_0_compat; assumption).
  assert (B2 : (p * tw <= tw)%Q).
  { rewrite <- (Qmult_1_l tw) at 2. apply Qmult_le_compat_r; [exact P2|lra]. }
  assert (RT : (r * p == p * tw)%Q) by (rewrite S; ring).
  destruct (wp_loop_ok v w (r * p)%Q L Pos (sort fl_less v) [] 0%Q) as (z & Ez & Iz & Z1 & Z2).
  - reflexivity.
  - reflexivity.
  - rewrite RT. exact B1.
  - cbn [app]. rewrite (qs_perm _ _ _ (sort_perm fl_less v)), <- WQ, RT. exact B2.
  - exists z. rewrite RT in Z1, Z2. auto.
Qed.

Lemma weighted_percentile_zero dims v w p : v <> [] -> length w = length v ->
  (weight_of (fun _ => true) v w == 0)%Q -> weighted_percentile dims dims v w p = Ok NaN.
Proof.
  intros Hv L Tw. unfold weighted_percentile.
  destruct (Nat.eqb_spec (length v) 0) as [C|C]; [destruct v; [congruence|discriminate]|]. cbn [negb check obind].
  destruct (list_eq_dec Nat.eq_dec dims dims) as [_|C2]; [|congruence]. cbn [check obind].
  destruct (total_weight v w L (seq 0 (length v)) 0%Q) as (r & E & S).
  { intros i Hi. apply in_seq in Hi. lia. }
  rewrite E. cbn [obind]. pose proof (weight_of_qs (fun _ => true) v w L) as WQ.
  change (wat (fun _ => true) v w) with (wat every v w) in WQ. rewrite <- WQ in S.
  destruct (Qeq_bool r 0) eqn:E0; [reflexivity|]. apply Qeq_bool_neq in E0. exfalso. apply E0. rewrite S, Tw. reflexivity.
Qed.

(* weighted_sums is the pair of sums *)
Lemma weighted_sums_ok dims v w : length w = length v ->
  exists t tw, weighted_sums dims dims v w = Ok (t, tw) /\
    (t == qsum (map (fun xy => fst xy * snd xy)%Q (combine v w)))%Q /\ (tw == qsum w)%Q.
Proof.
  intros L. unfold weighted_sums. destruct (list_eq_dec Nat.eq_dec dims dims) as [_|C2]; [|congruence]. cbn [check obind].
  assert (G : forall r1 r2 s1 s2 a b, length r1 = length s1 -> length r2 = length s2 ->
    exists t tw, ofold (fun '(t, tw) i => x <- oget (r1 ++ r2) i ;; y <- oget (s1 ++ s2) i ;; Ok (Qplus t (Qmult x y), Qplus tw y))
      (seq (length r1) (length r2)) (a, b) = Ok (t, tw) /\
      (t == a + qsum (map (fun xy => fst xy * snd xy)%Q (combine r2 s2)))%Q /\ (tw == b + qsum s2)%Q).
  { intros r1 r2; revert r1; induction r2 as [|x r2 IH]; intros r1 s1 [|y s2] a b L1 L2; try discriminate.
    - exists a, b. split; [reflexivity|]. cbn. split; ring.
    - cbn [length seq ofold]. unfold oget at 1 2.
      rewrite (nth_error_app2 r1), Nat.sub_diag by lia. rewrite (nth_error_app2 s1) by lia.
      replace (length r1 - length s1) with 0 by lia. cbn [nth_error obind].
      destruct (IH (r1 ++ [x]) (s1 ++ [y]) s2 (a + x * y)%Q (b + y)%Q) as (t & tw & E & T1 & T2).
      + rewrite !app_length. simpl. lia.
      + simpl in L2. lia.
      + rewrite app_length in E. cbn [length] in E. rewrite Nat.add_1_r in E. rewrite <- !app_assoc in E. cbn [app] in E.
        exists t, tw. split; [exact E|]. rewrite T1, T2. cbn [combine map]. unfold qsum. cbn [fold_right fst snd]. split; ring. }
  destruct (G [] v [] w 0%Q 0%Q eq_refl (eq_sym L)) as (t & tw & E & T1 & T2). cbn [app length] in E.
  exists t, tw. split; [exact E|]. rewrite T1, T2. split; ring.
Qed.

Lemma mean_ok v : v <> [] -> exists m, mean v = Some m /\ (m * inject_Z (Z.of_nat (length v)) == qsum v)%Q.
Proof.
  intros H. unfold mean. destruct (Nat.eqb_spec (length v) 0) as [C|C]; [destruct v; [congruence|discriminate]|].
  eexists. split; [reflexivity|].
  assert (G : forall v a, (fold_left Qplus v a == a + qsum v)%Q).
  { induction v0 as [|x v0 IH]; intros a; cbn [fold_left]; [cbn; ring|]. rewrite IH. unfold qsum. cbn [fold_right]. ring. }
  rewrite Qmult_comm, Qmult_div_r; [rewrite G; ring|].
  intros E. assert (inject_Z (Z.of_nat (length v)) == inject_Z 0)%Q as E' by exact E. rewrite inject_Z_injective in E'. lia.
Qed.

Lemma omapl_pairs (g : Z -> Z -> Z) : forall v1 v2, length v2 = length v1 ->
  omapl (fun i => a <- oget v1 i ;; b <- oget v2 i ;; Ok (g a b)) (seq 0 (length v1)) =
  Ok (map (fun p => g (fst p) (snd p)) (combine v1 v2)).
Proof.
  intros v1 v2 L.
  assert (G : forall r1 r2 s1 s2, length r1 = length s1 -> length r2 = length s2 ->
    omapl (fun i => a <- oget (r1 ++ r2) i ;; b <- oget (s1 ++ s2) i ;; Ok (g a b)) (seq (length r1) (length r2)) =
    Ok (map (fun p => g (fst p) (snd p)) (combine r2 s2))).
  { intros r1 r2; revert r1; induction r2 as [|x r2 IH]; intros r1 s1 [|y s2] L1 L2; try discriminate; [reflexivity|].
    cbn [length seq omapl]. unfold oget at 1 2.
    rewrite (nth_error_app2 r1), Nat.sub_diag by lia. rewrite (nth_error_app2 s1) by lia.
    replace (length r1 - length s1) with 0 by lia. cbn [nth_error obind].
    specialize (IH (r1 ++ [x]) (s1 ++ [y]) s2). rewrite !app_length in IH. cbn [length] in IH.
    rewrite Nat.add_1_r, <- !app_assoc in IH. cbn [app] in IH. rewrite IH; [reflexivity|lia|simpl in L2; lia]. }
  apply (G [] v1 [] v2 eq_refl (eq_sym L)).
Qed.

Lemma min_pairs_ok v1 v2 dims : length v2 = length v1 ->
  min_pairs Z.ltb (fun x => x) dims dims v1 v2 = Ok (map (fun p => Z.min (fst p) (snd p)) (combine v1 v2)) /\
  max_pairs Z.ltb (fun x => x) dims dims v1 v2 = Ok (map (fun p => Z.max (fst p) (snd p)) (combine v1 v2)).
Proof.
  intros L. unfold min_pairs, max_pairs. destruct (list_eq_dec Nat.eq_dec dims dims) as [_|C2]; [|congruence]. cbn [check obind].
  rewrite (omapl_pairs (fun a b => if (b <? a)%Z then b else a) v1 v2 L).
  rewrite (omapl_pairs (fun a b => if (a <? b)%Z then b else a) v1 v2 L).
  split; f_equal; apply map_ext; intros [a b]; cbn [fst snd].
  - destruct (Z.ltb_spec b a); lia.
  - destruct (Z.ltb_spec a b); lia.
Qed.
