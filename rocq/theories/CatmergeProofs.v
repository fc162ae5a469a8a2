From Coq Require Import String.
From Verif Require Import Base CatmergeModel CatmergeSpec.
Local Open Scope nat_scope.
Local Open Scope list_scope.

Lemma gather_cons {T} (l : list T) i ids v : nth_error l i = Some v -> gather l (i :: ids) = v :: gather l ids.
Proof. intros H. unfold gather. cbn. rewrite H. reflexivity. Qed.
Lemma pick_ok {T} (v : list T) ids : Forall (fun i => i < length v) ids -> pick v ids = Ok (gather v ids).
Proof.
  induction 1 as [|i ids H F IH]; [reflexivity|]. unfold pick in *. cbn [omapl].
  destruct (nth_error v i) eqn:E; [|apply nth_error_None in E; lia].
  rewrite (gather_cons _ _ _ _ E). apply Nat.ltb_lt in H. rewrite H. cbn [check obind]. unfold oget at 1. rewrite E. cbn [obind].
  rewrite IH. reflexivity.
Qed.
Lemma pick_inv {T} (v : list T) ids w : pick v ids = Ok w -> Forall (fun i => i < length v) ids /\ w = gather v ids.
Proof.
  intros H. assert (F : Forall (fun i => i < length v) ids).
  { revert w H. induction ids as [|i ids IH]; intros w H; [constructor|]. unfold pick in *. cbn [omapl] in H.
    destruct (Nat.ltb_spec i (length v)); cbn [check obind] in H; [|discriminate].
    destruct (oget v i); cbn [obind] in H; try discriminate.
    destruct (omapl _ ids) as [w'| | | |]; cbn in H; try discriminate. constructor; [assumption|]. eapply IH. reflexivity. }
  split; [exact F|]. rewrite (pick_ok v ids F) in H. congruence.
Qed.
Lemma gather_length {T} (l : list T) ids : Forall (fun i => i < length l) ids -> length (gather l ids) = length ids.
Proof.
  induction 1 as [|i ids H F IH]; [reflexivity|]. destruct (nth_error l i) eqn:E; [|apply nth_error_None in E; lia].
  rewrite (gather_cons _ _ _ _ E). cbn. now rewrite IH.
Qed.
Lemma gather_nth {T} (l : list T) ids k i : Forall (fun i => i < length l) ids -> nth_error ids k = Some i ->
  nth_error (gather l ids) k = nth_error l i.
Proof.
  intros F. revert k. induction F as [|j ids H F IH]; intros [|k] Hk; cbn in Hk; try discriminate;
    (destruct (nth_error l j) eqn:E; [|apply nth_error_None in E; lia]); rewrite (gather_cons _ _ _ _ E); cbn.
  - injection Hk as ->. congruence.
  - apply IH. exact Hk.
Qed.
Lemma gather_app {T} (l : list T) a b : gather l (a ++ b) = gather l a ++ gather l b.
Proof. apply flat_map_app. Qed.

(* writing at different places *)
Lemma puts_ok {T} (w : list T) : forall ids v, length ids = length w -> NoDup ids -> Forall (fun i => i < length v) ids ->
  exists r, ofold (fun v '(i, x) => oset v i x) (combine ids w) v = Ok r /\ length r = length v /\
    (forall k g x, nth_error ids k = Some g -> nth_error w k = Some x -> nth_error r g = Some x) /\
    (forall g, ~ In g ids -> nth_error r g = nth_error v g).
Proof.
  induction w as [|x w IH]; intros [|i ids] v L N F; try discriminate.
  - exists v. repeat split; auto. intros [|k]; discriminate.
  - cbn [combine ofold]. inversion_clear F as [|? ? Hi F']. inversion_clear N as [|? ? Ni N'].
    unfold oset at 1. apply Nat.ltb_lt in Hi. rewrite Hi. apply Nat.ltb_lt in Hi. cbn [obind].
    destruct (IH ids (upd v i x)) as (r & E & Lr & R1 & R2).
    + cbn in L. lia.
    + exact N'.
    + eapply Forall_impl; [|exact F']. intros j. rewrite upd_length. auto.
    + exists r. split; [exact E|]. rewrite upd_length in Lr. split; [exact Lr|]. split.
      * intros [|k] g y Hg Hy; cbn in Hg, Hy.
        -- injection Hg as <-. injection Hy as <-. rewrite R2 by exact Ni. apply nth_error_upd_same. exact Hi.
        -- eapply R1; eassumption.
      * intros g Hg. cbn in Hg. rewrite R2 by tauto. apply nth_error_upd_other. intros ->. apply Hg. auto.
Qed.
Lemma forallb_lt ids n : forallb (fun i => i <? n) ids = true <-> Forall (fun i => i < n) ids.
Proof. rewrite forallb_forall, Forall_forall. split; intros H x I; apply Nat.ltb_lt, H, I. Qed.
Lemma put_ok {T} (v : list T) ids w : length ids = length w -> NoDup ids -> Forall (fun i => i < length v) ids ->
  exists r, put v ids w = Ok r /\ length r = length v /\
    (forall k g x, nth_error ids k = Some g -> nth_error w k = Some x -> nth_error r g = Some x) /\
    (forall g, ~ In g ids -> nth_error r g = nth_error v g).
Proof.
  intros L N F. destruct (puts_ok w ids v L N F) as (r & E & R). exists r. split; [|exact R].
  unfold put. rewrite (proj2 (forallb_lt _ _) F), L, Nat.eqb_refl. exact E.
Qed.
Lemma filter_seq_S (f : nat -> bool) n : filter f (seq 0 (n + 1)) = filter f (seq 0 n) ++ (if f n then [n] else []).
Proof. rewrite Nat.add_1_r, seq_S, filter_app. cbn. destruct (f n); reflexivity. Qed.
Lemma count_mono (f : nat -> bool) a b : a < b -> f a = true -> length (filter f (seq 0 a)) < length (filter f (seq 0 b)).
Proof.
  intros L F. replace b with (a + (1 + (b - a - 1))) by lia. rewrite seq_app, filter_app, app_length. cbn [Nat.add seq]. cbn [filter].
  rewrite F. cbn [length]. lia.
Qed.

Section Add.
Context {C D : Type}.
Implicit Types x : xmres D.

Lemma partner_spec x i k : partner x i = Some k <-> mutual x i k.
Proof.
  unfold partner, mutual. split.
  - destruct (nth_error (xid x) i) as [[k'|]|] eqn:E1; try discriminate.
    destruct (nth_error (xrid x) k') as [[j|]|] eqn:E2; try discriminate.
    destruct (Nat.eqb_spec j i); try discriminate. intros [= ->]. subst. auto.
  - intros [-> ->]. now rewrite Nat.eqb_refl.
Qed.
Lemma target_inj x ng i j n : good_match n ng x -> i < n -> j < n -> target x ng i = target x ng j -> i = j.
Proof.
  intros (L1 & L2 & F & _) Hi Hj. unfold target.
  assert (B : forall i k, partner x i = Some k -> k < ng).
  { intros i' k H. apply partner_spec in H. destruct H as [H _]. apply nth_error_In in H.
    apply (proj1 (Forall_forall _ _) F) in H. destruct H as (k' & [= ->] & H). exact H. }
  destruct (partner x i) as [k|] eqn:E1, (partner x j) as [k'|] eqn:E2; intros E.
  - subst k'. apply partner_spec in E1. apply partner_spec in E2. destruct E1 as [_ E1], E2 as [_ E2]. congruence.
  - specialize (B i k E1). lia.
  - specialize (B j k' E2). lia.
  - destruct (lt_eq_lt_dec i j) as [[L|]|L]; [|assumption|].
    + pose proof (count_mono (alone x) i j L ltac:(unfold alone; now rewrite E1)). lia.
    + pose proof (count_mono (alone x) j i L ltac:(unfold alone; now rewrite E2)). lia.
Qed.
Lemma target_bound x ng i n : good_match n ng x -> i < n -> target x ng i < ng + length (filter (alone x) (seq 0 n)).
Proof.
  intros G Hi. unfold target. destruct (partner x i) as [k|] eqn:E.
  - destruct G as (L1 & L2 & F & _). apply partner_spec in E. destruct E as [E _]. apply nth_error_In in E.
    apply (proj1 (Forall_forall _ _) F) in E. destruct E as (k' & [= ->] & H). lia.
  - pose proof (count_mono (alone x) i n Hi ltac:(unfold alone; now rewrite E)). lia.
Qed.

(* the loop *)
Definition after (no_new : bool) x (ng number : nat) (sra sdec : list C) (ra dec : list C) (origin : list nat) (n j : nat) : lstate :=
  (map (target x ng) (kept no_new x j), length (new_ones no_new x j), (if no_new then kept no_new x j else seq 0 n),
   ra ++ gather sra (new_ones no_new x j), dec ++ gather sdec (new_ones no_new x j), origin ++ repeat number (length (new_ones no_new x j))).

Lemma step_ok cra cdec no_new sel number x ng ra dec origin j : Forall (fun i => i < length cra) sel ->
  length cra = length cdec -> good_match (length sel) ng x -> length ra = ng -> j < length sel ->
  match_one cra cdec no_new sel number x (after no_new x ng number (gather cra sel) (gather cdec sel) ra dec origin (length sel) j) j =
  Ok (after no_new x ng number (gather cra sel) (gather cdec sel) ra dec origin (length sel) (j + 1)).
Proof.
  intros Fs Lc G Lr J. assert (G' := G). destruct G' as (L1 & L2 & F & _).
  unfold match_one, after at 1. cbn beta iota.
  destruct (nth_error (xid x) j) as [o|] eqn:Ej; [|apply nth_error_None in Ej; lia].
  pose proof (proj1 (Forall_forall _ _) F o (nth_error_In _ _ Ej)) as (k & -> & Hk).
  assert (T1 : (j <? length (xid x)) = true) by (apply Nat.ltb_lt; lia).
  assert (T2 : (k <? length (xrid x)) = true) by (apply Nat.ltb_lt; lia).
  rewrite T1. cbn [check obind]. unfold oget at 1. rewrite Ej. cbn [obind]. rewrite T2. cbn [check obind].
  destruct (nth_error (xrid x) k) as [b|] eqn:Eb; [|apply nth_error_None in Eb; lia].
  unfold oget at 1. rewrite Eb. cbn [obind].
  assert (P : partner x j = if match b with Some b => b =? j | None => false end then Some k else None).
  { unfold partner. rewrite Ej, Eb. destruct b as [b|]; [destruct (b =? j)|]; reflexivity. }
  assert (K : kept no_new x (j + 1) = kept no_new x j ++ (if no_new && alone x j then [] else [j])).
  { unfold kept. destruct no_new; cbn [andb].
    - rewrite filter_seq_S. destruct (alone x j); reflexivity.
    - now rewrite Nat.add_1_r, seq_S. }
  assert (W : new_ones no_new x (j + 1) = new_ones no_new x j ++ (if negb no_new && alone x j then [j] else [])).
  { unfold new_ones. destruct no_new; cbn [andb negb]; [reflexivity|]. apply filter_seq_S. }
  assert (Al : alone x j = negb (match b with Some b => b =? j | None => false end)).
  { unfold alone. rewrite P. destruct (match b with Some b => b =? j | None => false end); reflexivity. }
  unfold after. rewrite K, W, Al. destruct (match b with Some b => b =? j | None => false end) eqn:Em.
  - cbn [negb]. rewrite !andb_false_r. cbn [andb negb]. rewrite app_nil_r, map_app. cbn [map].
    assert (Tg : target x ng j = k) by (unfold target; now rewrite P). rewrite Tg. destruct no_new; reflexivity.
  - destruct no_new.
    + cbn [negb andb]. rewrite !app_nil_r. reflexivity.
    + cbn [negb andb].
      destruct (nth_error sel j) as [i|] eqn:Es; [|apply nth_error_None in Es; lia]. unfold oget at 1. rewrite Es. cbn [obind].
      pose proof (proj1 (Forall_forall _ _) Fs i (nth_error_In _ _ Es)) as Hi. cbn beta in Hi.
      assert (Hi' : i < length cdec) by lia.
      rewrite (proj2 (Nat.ltb_lt i (length cra)) Hi), (proj2 (Nat.ltb_lt i (length cdec)) Hi'). cbn [check obind].
      destruct (nth_error cra i) as [r|] eqn:Er; [|apply nth_error_None in Er; lia].
      destruct (nth_error cdec i) as [d|] eqn:Ed; [|apply nth_error_None in Ed; lia].
      unfold oget. rewrite Er. cbn [obind]. rewrite Ed. cbn [obind].
      assert (Fd : Forall (fun i => i < length cdec) sel) by (now rewrite <- Lc).
      rewrite !gather_app, !app_length, !map_app, repeat_app. cbn [length map repeat].
      assert (Gr : nth_error (gather cra sel) j = Some r) by (rewrite (gather_nth _ _ _ _ Fs Es); assumption).
      assert (Gd : nth_error (gather cdec sel) j = Some d) by (rewrite (gather_nth _ _ _ _ Fd Es); assumption).
      rewrite (gather_cons _ j [] r Gr), (gather_cons _ j [] d Gd).
      assert (Tg : target x ng j = length ra + length (gather (gather cra sel) (new_ones false x j))).
      { unfold target. rewrite P. rewrite Lr. f_equal. rewrite gather_length; [reflexivity|].
        rewrite gather_length by exact Fs. apply Forall_forall. intros y Hy. unfold new_ones in Hy. apply filter_In in Hy.
        destruct Hy as [Hy _]. apply in_seq in Hy. lia. }
      rewrite Tg, !app_assoc. cbn [gather flat_map]. reflexivity.
Qed.
Lemma loop_ok cra cdec no_new sel number x ng ra dec origin : Forall (fun i => i < length cra) sel ->
  length cra = length cdec -> good_match (length sel) ng x -> length ra = ng ->
  ofold (match_one cra cdec no_new sel number x) (seq 0 (length sel))
    ([], 0, (if no_new then [] else seq 0 (length sel)), ra, dec, origin) =
  Ok (after no_new x ng number (gather cra sel) (gather cdec sel) ra dec origin (length sel) (length sel)).
Proof.
  intros Fs Lc G Lr.
  assert (S0 : ([], 0, (if no_new then [] else seq 0 (length sel)), ra, dec, origin) =
    after no_new x ng number (gather cra sel) (gather cdec sel) ra dec origin (length sel) 0).
  { unfold after, kept, new_ones. destruct no_new; cbn; now rewrite !app_nil_r. }
  rewrite S0.
  enough (E : forall m j, j + m = length sel -> ofold (match_one cra cdec no_new sel number x) (seq j m)
     (after no_new x ng number (gather cra sel) (gather cdec sel) ra dec origin (length sel) j) =
     Ok (after no_new x ng number (gather cra sel) (gather cdec sel) ra dec origin (length sel) (length sel))) by (apply E; lia).
  induction m as [|m IH]; intros j H; cbn [seq ofold].
  - do 2 f_equal. lia.
  - rewrite step_ok by (try assumption; lia). cbn [obind]. rewrite Nat.add_1_r. apply IH. lia.
Qed.
Lemma kept_tsel (no_new : bool) x n : (if no_new then kept no_new x n else seq 0 n) = kept no_new x n.
Proof. destruct no_new; reflexivity. Qed.
Lemma kept_lt no_new x n : Forall (fun i => i < n) (kept no_new x n).
Proof.
  apply Forall_forall. intros i H. unfold kept in H. destruct no_new; [apply filter_In in H; destruct H as [H _]|]; apply in_seq in H; lia.
Qed.
Lemma kept_NoDup no_new x n : NoDup (kept no_new x n).
Proof.
  unfold kept. destruct no_new; [|apply seq_NoDup]. generalize (seq_NoDup n 0). generalize (seq 0 n). intros l.
  induction 1 as [|y l N H IH]; cbn; [constructor|]. destruct (negb (alone x y)); [|exact IH]. constructor; [|exact IH].
  rewrite filter_In. tauto.
Qed.
End Add.
