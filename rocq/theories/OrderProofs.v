From Verif Require Import Base IndexProofs VecModel VecProofs VecProofs2 OrderModel OrderSpec.
From Coq Require Import ZifyBool.

(* ---- lists ---- *)
Lemma ordered_nil A (R : A -> A -> Prop) : ordered R [].
Proof. intros [|i] j x y _ H; discriminate. Qed.

Lemma ordered_cons A (R : A -> A -> Prop) x l :
  ordered R (x :: l) <-> (forall y, In y l -> R x y) /\ ordered R l.
Proof.
  split.
  - intros H. split.
    + intros y Hy. apply In_nth_error in Hy. destruct Hy as [n Hn]. apply (H 0 (S n)); [lia|reflexivity|exact Hn].
    + intros i j a b Hij Ha Hb. apply (H (S i) (S j)); [lia|exact Ha|exact Hb].
  - intros [H1 H2] [|i] [|j] a b Hij Ha Hb; try lia; cbn [nth_error] in *.
    + injection Ha as <-. apply H1. eapply nth_error_In; eassumption.
    + apply (H2 i j); [lia|assumption|assumption].
Qed.

Lemma ordered_impl A (R S : A -> A -> Prop) l :
  (forall x y, In x l -> In y l -> R x y -> S x y) -> ordered R l -> ordered S l.
Proof.
  intros H O i j x y Hij Hx Hy. apply H; try (eapply nth_error_In; eassumption).
  eapply O; eassumption.
Qed.

Lemma ordered_app A (R : A -> A -> Prop) l1 l2 :
  ordered R (l1 ++ l2) <-> ordered R l1 /\ ordered R l2 /\ (forall x y, In x l1 -> In y l2 -> R x y).
Proof.
  induction l1 as [|x l1 IH].
  - cbn [app]. split; [intros H; split; [apply ordered_nil|split; [assumption|intros ? ? []]]|intros (_ & H & _); exact H].
  - cbn [app]. rewrite !ordered_cons, IH. split.
    + intros (H1 & H2 & H3 & H4). split; [split; [intros; apply H1, in_or_app; auto|assumption]|].
      split; [assumption|]. intros a b [<-|Ha] Hb; [apply H1, in_or_app; auto|auto].
    + intros ((H1 & H2) & H3 & H4). split; [|split; [assumption|split; [assumption|intros; apply H4; simpl; auto]]].
      intros y Hy. apply in_app_or in Hy. destruct Hy; [auto|apply H4; simpl; auto].
Qed.

Lemma ordered_map A B (f : A -> B) (R : B -> B -> Prop) l :
  ordered R (map f l) <-> ordered (fun x y => R (f x) (f y)) l.
Proof.
  induction l as [|x l IH]; [split; intros; apply ordered_nil|]. cbn [map]. rewrite !ordered_cons, IH.
  split; intros [H1 H2]; split; auto.
  - intros y Hy. apply H1, in_map; assumption.
  - intros y Hy. apply in_map_iff in Hy. destruct Hy as (a & <- & Ha). auto.
Qed.

Lemma ordered_filter A (R : A -> A -> Prop) p l : ordered R l -> ordered R (filter p l).
Proof.
  induction l as [|x l IH]; [auto|]. rewrite ordered_cons. intros [H1 H2]. cbn [filter].
  destruct (p x); [|auto]. rewrite ordered_cons. split; [|auto]. intros y Hy. apply filter_In in Hy. apply H1; tauto.
Qed.

Lemma ordered_seq s n : ordered lt (seq s n).
Proof.
  revert s; induction n as [|n IH]; intros s; [apply ordered_nil|]. cbn [seq]. rewrite ordered_cons.
  split; [|apply IH]. intros y Hy. apply in_seq in Hy. lia.
Qed.

Lemma ordered_NoDup A (R : A -> A -> Prop) l : (forall x, In x l -> ~ R x x) -> ordered R l -> NoDup l.
Proof.
  induction l as [|x l IH]; intros H O; [constructor|]. rewrite ordered_cons in O. destruct O as [O1 O2].
  constructor; [intros Hx; apply (H x); [simpl; auto|apply O1; assumption]|apply IH; [intros; apply H; simpl; auto|assumption]].
Qed.

(* two permutations ordered by an asymmetric relation are equal *)
Lemma ordered_perm_unique A (R : A -> A -> Prop) :
  forall l1 l2, (forall x y, In x l1 -> In y l1 -> R x y -> ~ R y x) ->
  Permutation l1 l2 -> ordered R l1 -> ordered R l2 -> l1 = l2.
Proof.
  induction l1 as [|x l1 IH]; intros l2 HR P O1 O2.
  - apply Permutation_nil in P. congruence.
  - destruct l2 as [|y l2]; [apply Permutation_sym, Permutation_nil in P; discriminate|].
    rewrite ordered_cons in O1, O2. destruct O1 as [A1 B1]. destruct O2 as [A2 B2].
    assert (x = y).
    { assert (Hx : In x (y :: l2)) by (eapply Permutation_in; [exact P|simpl; auto]).
      assert (Hy : In y (x :: l1)) by (eapply Permutation_in; [apply Permutation_sym; exact P|simpl; auto]).
      destruct Hx as [->|Hx]; [reflexivity|]. destruct Hy as [->|Hy]; [reflexivity|].
      exfalso. apply (HR x y); [simpl; auto|simpl; auto|apply A1; assumption|apply A2; assumption]. }
    subst y. f_equal. apply IH; try assumption.
    + intros; apply HR; simpl; auto.
    + eapply Permutation_cons_inv; exact P.
Qed.

Lemma in_combine_seq A (l : list A) s i x :
  In (i, x) (combine (seq s (length l)) l) <-> s <= i /\ nth_error l (i - s) = Some x.
Proof.
  revert s; induction l as [|y l IH]; intros s; cbn [length seq combine].
  - split; [intros []|intros [_ H]; destruct (i - s); discriminate].
  - cbn [In]. rewrite IH. split.
    + intros [H|[H1 H2]].
      * injection H as <- <-. rewrite Nat.sub_diag. split; [lia|reflexivity].
      * split; [lia|]. replace (i - s) with (S (i - S s)) by lia. exact H2.
    + intros [H1 H2]. destruct (Nat.eq_dec i s) as [->|Hn].
      * rewrite Nat.sub_diag in H2. injection H2 as ->. auto.
      * right. split; [lia|]. replace (i - s) with (S (i - S s)) in H2 by lia. exact H2.
Qed.

Lemma in_indexed A (l : list A) i x : In (i, x) (indexed l) <-> nth_error l i = Some x.
Proof. unfold indexed. rewrite in_combine_seq, Nat.sub_0_r. split; [tauto|intros; split; [lia|assumption]]. Qed.

Lemma map_fst_combine A B (l1 : list A) (l2 : list B) : length l1 = length l2 -> map fst (combine l1 l2) = l1.
Proof. revert l2; induction l1 as [|x l1 IH]; intros [|y l2] H; try discriminate; [reflexivity|]. cbn. f_equal. apply IH. simpl in H; lia. Qed.
Lemma map_snd_combine A B (l1 : list A) (l2 : list B) : length l1 = length l2 -> map snd (combine l1 l2) = l2.
Proof. revert l2; induction l1 as [|x l1 IH]; intros [|y l2] H; try discriminate; [reflexivity|]. cbn. f_equal. apply IH. simpl in H; lia. Qed.

Lemma map_fst_indexed A (l : list A) : map fst (indexed l) = seq 0 (length l).
Proof. apply map_fst_combine. apply seq_length. Qed.
Lemma map_snd_indexed A (l : list A) : map snd (indexed l) = l.
Proof. apply map_snd_combine. apply seq_length. Qed.

Lemma ordered_indexed A (l : list A) : ordered (fun p q => fst p < fst q) (indexed l).
Proof. rewrite <- (ordered_map _ _ fst). rewrite map_fst_indexed. apply ordered_seq. Qed.

(* ---- C11 ---- *)
Lemma where_in v i : In i (where_ v) <-> nth_error v i = Some true.
Proof.
  unfold where_. fold (indexed v). rewrite in_map_iff. split.
  - intros ((j & b) & <- & H). apply filter_In in H. destruct H as [H1 H2]. cbn [snd] in H2. subst b.
    apply in_indexed in H1. exact H1.
  - intros H. exists (i, true). split; [reflexivity|]. apply filter_In. split; [|reflexivity].
    apply in_indexed. exact H.
Qed.

Lemma where_sorted v : ordered lt (where_ v).
Proof. unfold where_. apply ordered_map, ordered_filter, ordered_indexed. Qed.

Lemma where_first_from_spec : forall v s,
  where_first_from s v = hd_error (map fst (filter snd (combine (seq s (length v)) v))).
Proof.
  induction v as [|b v IH]; intros s; [reflexivity|]. cbn [where_first_from length seq combine filter snd].
  destruct b; [reflexivity|apply IH].
Qed.

Lemma filter_snoc A (p : A -> bool) l x : filter p (l ++ [x]) = filter p l ++ (if p x then [x] else []).
Proof. rewrite filter_app. cbn [filter]. destruct (p x); reflexivity. Qed.

Lemma combine_snoc A B (l1 : list A) (l2 : list B) x y : length l1 = length l2 ->
  combine (l1 ++ [x]) (l2 ++ [y]) = combine l1 l2 ++ [(x, y)].
Proof.
  revert l2; induction l1 as [|a l1 IH]; intros [|b l2] H; try discriminate; [reflexivity|].
  cbn [app combine]. f_equal. apply IH. simpl in H; lia.
Qed.

Lemma where_snoc v b : where_ (v ++ [b]) = where_ v ++ (if b then [length v] else []).
Proof.
  unfold where_. rewrite app_length. cbn [length]. rewrite seq_app. cbn [seq].
  rewrite combine_snoc by (rewrite seq_length; reflexivity). rewrite filter_snoc, map_app. cbn [snd].
  destruct b; [rewrite Nat.add_0_l|]; reflexivity.
Qed.

Lemma where_last_loop_snoc v b : forall is, Forall (fun i => 0 < i <= length v) is ->
  where_last_loop (v ++ [b]) is = where_last_loop v (map pred is).
Proof.
  induction is as [|i is IH]; intros F; [reflexivity|]. inversion F as [|? ? Hi Hf]; subst.
  cbn [where_last_loop map]. rewrite app_length. cbn [length].
  replace (length v + 1 - 1 - i) with (length v - 1 - pred i) by lia. unfold oget.
  rewrite nth_error_app1 by lia. destruct (nth_error v _) as [x|]; [|reflexivity].
  cbn [obind]. destruct x; [reflexivity|]. apply IH; assumption.
Qed.

Lemma where_last_spec v : where_last v = Ok (hd_error (rev (where_ v))).
Proof.
  unfold where_last. induction v as [|b v IH] using rev_ind; [reflexivity|].
  rewrite app_length. cbn [length]. rewrite Nat.add_1_r. cbn [seq where_last_loop].
  rewrite app_length. cbn [length]. replace (length v + 1 - 1 - 0) with (length v) by lia.
  unfold oget at 1. rewrite nth_error_app2, Nat.sub_diag by lia. cbn [nth_error obind].
  rewrite where_snoc, rev_app_distr. destruct b; [reflexivity|].
  rewrite where_last_loop_snoc.
  - rewrite <- seq_shift, map_map. cbn [pred]. rewrite map_id, IH. reflexivity.
  - apply Forall_forall. intros i Hi. apply in_seq in Hi. lia.
Qed.

Lemma sel_fold : forall ids s, Forall (fun i => i < length s) ids ->
  exists s', ofold (fun s i => _ <- check (i <? length s) ;; oset s i true) ids s = Ok s' /\ length s' = length s /\
    forall i, nth_error s' i = if in_dec Nat.eq_dec i ids then (if i <? length s then Some true else None) else nth_error s i.
Proof.
  induction ids as [|j ids IH]; intros s F.
  - exists s. split; [reflexivity|]. split; [reflexivity|]. intros i. destruct (in_dec Nat.eq_dec i []) as [[]|]; reflexivity.
  - inversion F; subst. cbn [ofold]. unfold oset at 1. destruct (Nat.ltb_spec j (length s)); [|lia]. cbn [check obind].
    destruct (IH (upd s j true)) as (s' & E & L & N).
    { rewrite upd_length. assumption. }
    rewrite upd_length in L. exists s'. split; [exact E|]. split; [assumption|]. intros i. rewrite N, upd_length.
    destruct (in_dec Nat.eq_dec i ids) as [Hi|Hi]; destruct (in_dec Nat.eq_dec i (j :: ids)) as [Hj|Hj]; simpl in Hj;
      try tauto; try reflexivity.
    + destruct Hj as [->|]; [|tauto]. rewrite nth_error_upd_same by assumption.
      destruct (Nat.ltb_spec i (length s)); [reflexivity|lia].
    + apply nth_error_upd_other. intros ->; tauto.
Qed.

Lemma sel_fold_fail : forall ids (s : list bool), ~ Forall (fun i => i < length s) ids ->
  ofold (fun s i => _ <- check (i <? length s) ;; oset s i true) ids s = CheckFail.
Proof.
  induction ids as [|j ids IH]; intros s F; [destruct F; constructor|]. cbn [ofold]. unfold oset at 1.
  destruct (Nat.ltb_spec j (length s)) as [Hl|Hl]; [|reflexivity]. cbn [check obind]. apply IH.
  rewrite upd_length. intros F2. apply F. constructor; assumption.
Qed.

Lemma complement_spec A (v : list A) ids :
  Forall (fun i => i < length v) ids -> length ids <= length v ->
  (length ids = length v -> NoDup ids) ->
  exists c, complement v ids = Ok c /\ ordered lt c /\ forall i, In i c <-> i < length v /\ ~ In i ids.
Proof.
  intros F L N. unfold complement. destruct (Nat.eqb_spec (length ids) (length v)) as [E|E].
  - exists []. split; [reflexivity|]. split; [apply ordered_nil|]. intros i. split; [intros []|].
    intros [Hi Hn]. apply Hn. specialize (N E). clear Hn.
    assert (incl (seq 0 (length v)) ids) as I.
    { apply NoDup_length_incl; [apply N| rewrite seq_length; lia|].
      intros j Hj. apply in_seq. rewrite Forall_forall in F. specialize (F j Hj). lia. }
    apply I. apply in_seq. lia.
  - destruct (Nat.ltb_spec (length ids) (length v)) as [Hlt|Hlt]; [|lia]. cbn [check obind].
    destruct (sel_fold ids (repeat false (length v))) as (s' & Es & Ls & Ns).
    { rewrite repeat_length. assumption. }
    rewrite Es. cbn [obind]. eexists. split; [reflexivity|]. rewrite repeat_length in Ls, Ns.
    rewrite <- Ls. split; [apply ordered_map, ordered_filter; apply (ordered_indexed _ s')|].
    intros i. rewrite in_map_iff. fold (indexed s'). split.
    + intros ((k & b) & <- & H). apply filter_In in H. destruct H as [H1 H2]. cbn [snd] in H2.
      destruct b; [discriminate|]. apply in_indexed in H1. cbn [fst].
      assert (k < length s') by (apply nth_error_Some; congruence). split; [assumption|].
      rewrite Ns in H1. destruct (in_dec Nat.eq_dec k ids); [|assumption].
      destruct (Nat.ltb_spec k (length v)); [discriminate|lia].
    + intros [Hi Hn]. exists (i, false). split; [reflexivity|]. apply filter_In. split; [|reflexivity].
      apply in_indexed. rewrite Ns. destruct (in_dec Nat.eq_dec i ids); [tauto|].
      rewrite nth_error_repeat; [reflexivity|lia].
Qed.

Lemma complement_reject A (v : list A) ids :
  length v < length ids \/ (length ids < length v /\ ~ Forall (fun i => i < length v) ids) ->
  complement v ids = CheckFail.
Proof.
  intros H. unfold complement. destruct (Nat.eqb_spec (length ids) (length v)); [lia|].
  destruct (Nat.ltb_spec (length ids) (length v)); [|reflexivity]. cbn [check obind].
  rewrite sel_fold_fail; [reflexivity|]. rewrite repeat_length. destruct H as [H|[_ H]]; [lia|exact H].
Qed.

Lemma where_complement m : exists c, complement m (where_ m) = Ok c /\
  Permutation (where_ m ++ c) (seq 0 (length m)) /\ forall i, In i c <-> nth_error m i = Some false.
Proof.
  assert (Nw : NoDup (where_ m)) by (eapply ordered_NoDup; [|apply where_sorted]; intros; simpl; lia).
  assert (Iw : incl (where_ m) (seq 0 (length m))).
  { intros i Hi. apply where_in in Hi. apply in_seq. split; [lia|]. simpl. apply nth_error_Some. congruence. }
  destruct (complement_spec _ m (where_ m)) as (c & E & O & S).
  - apply Forall_forall. intros i Hi. apply Iw, in_seq in Hi. lia.
  - pose proof (NoDup_incl_length Nw Iw). rewrite seq_length in *. assumption.
  - intros _. exact Nw.
  - exists c. split; [exact E|]. split.
    + apply NoDup_Permutation.
      * apply NoDup_app_intro; [exact Nw|eapply ordered_NoDup; [|exact O]; intros; simpl; lia|].
        intros i H1 H2. apply S in H2. tauto.
      * apply seq_NoDup.
      * intros i. rewrite in_app_iff, in_seq, S. split.
        -- intros [H|[H _]]; [apply Iw, in_seq in H; lia|lia].
        -- intros [_ H]. destruct (in_dec Nat.eq_dec i (where_ m)); [auto|right; split; [lia|assumption]].
    + intros i. rewrite S, where_in. split.
      * intros [H1 H2]. destruct (nth_error m i) as [[|]|] eqn:X; [tauto|reflexivity|apply nth_error_None in X; lia].
      * intros H. split; [apply nth_error_Some; congruence|congruence].
Qed.

(* ---- sorting ---- *)
Section Sort.
Context {A : Type} (ltA : A -> A -> bool).

Lemma insert_perm x l : Permutation (insert ltA x l) (x :: l).
Proof.
  induction l as [|y l IH]; [reflexivity|]. cbn [insert]. destruct (ltA y x); [|reflexivity].
  rewrite IH. apply perm_swap.
Qed.
Lemma stable_sort_perm l : Permutation (stable_sort ltA l) l.
Proof.
  induction l as [|x l IH]; [reflexivity|]. cbn [stable_sort fold_right]. fold (stable_sort ltA l).
  rewrite insert_perm, IH. reflexivity.
Qed.

Hypothesis W : weak_order ltA.

Lemma lt_irrefl x : ltA x x = false.
Proof. destruct (ltA x x) eqn:E; [|reflexivity]. apply W in E as E2. congruence. Qed.
Lemma lt_trans x y z : ltA x y = true -> ltA y z = true -> ltA x z = true.
Proof.
  intros H1 H2. destruct W as [As Co]. destruct (Co x z y H1) as [H|H]; [exact H|].
  apply As in H. congruence.
Qed.
Lemma ge_trans x y z : ltA y x = false -> ltA z y = false -> ltA z x = false.
Proof.
  intros H1 H2. destruct W as [As Co]. destruct (ltA z x) eqn:E; [|reflexivity].
  destruct (Co z y x E); congruence.
Qed.

(* R: order of the result when S orders the input *)
Variable S : A -> A -> Prop.
Let R x y := ltA x y = true \/ (ltA y x = false /\ S x y).

Lemma insert_ordered x : forall l, (forall y, In y l -> S x y) -> ordered R l -> ordered R (insert ltA x l).
Proof.
  induction l as [|y t IH]; intros HS O.
  - cbn [insert]. rewrite ordered_cons. split; [intros ? []|apply ordered_nil].
  - rewrite ordered_cons in O. destruct O as [O1 O2]. cbn [insert]. destruct (ltA y x) eqn:E.
    + rewrite ordered_cons. split.
      * intros z Hz. apply (Permutation_in _ (insert_perm x t)) in Hz. destruct Hz as [<-|Hz].
        -- left; exact E.
        -- apply O1; assumption.
      * apply IH; [intros; apply HS; simpl; auto|assumption].
    + rewrite ordered_cons. split; [|rewrite ordered_cons; split; assumption].
      intros z Hz. destruct (ltA z x) eqn:Ez; [|right; split; [assumption|apply HS; assumption]].
      exfalso. destruct Hz as [<-|Hz]; [congruence|]. destruct W as [As Co].
      destruct (Co z y x Ez) as [H|H]; [|congruence]. destruct (O1 z Hz) as [H1|[H1 _]]; [|congruence].
      apply As in H. congruence.
Qed.

Lemma stable_sort_ordered l : ordered S l -> ordered R (stable_sort ltA l).
Proof.
  induction l as [|x l IH]; intros O; [apply ordered_nil|]. rewrite ordered_cons in O. destruct O as [O1 O2].
  cbn [stable_sort fold_right]. fold (stable_sort ltA l). apply insert_ordered; [|apply IH; assumption].
  intros y Hy. apply O1. eapply Permutation_in; [apply stable_sort_perm|exact Hy].
Qed.
End Sort.

Lemma stable_sort_ascending A (ltA : A -> A -> bool) l : weak_order ltA -> ascending ltA (stable_sort ltA l).
Proof.
  intros W. eapply ordered_impl; [|apply (stable_sort_ordered ltA W (fun _ _ => True))].
  - cbn. intros x y _ _ [H|[H _]]; [apply W; assumption|assumption].
  - intros i j x y _ _ _. exact I.
Qed.

Lemma weak_order_snd A (ltA : A -> A -> bool) : weak_order ltA ->
  weak_order (fun p q : nat * A => ltA (snd p) (snd q)).
Proof. intros [H1 H2]. split; intros; [apply H1; assumption|apply H2; assumption]. Qed.

Section SortIds.
Context {A : Type} (ltA : A -> A -> bool) (W : weak_order ltA).

Definition Rp (p q : nat * A) := ltA (snd p) (snd q) = true \/ (ltA (snd q) (snd p) = false /\ fst p < fst q).

Lemma sort_pairs_perm v : Permutation (sort_pairs ltA v) (indexed v).
Proof. apply stable_sort_perm. Qed.

Lemma sort_pairs_ordered v : ordered Rp (sort_pairs ltA v).
Proof. apply (stable_sort_ordered _ (weak_order_snd _ _ W) (fun p q => fst p < fst q)). apply ordered_indexed. Qed.

Lemma sort_perm v : Permutation (sort ltA v) (seq 0 (length v)).
Proof. unfold sort. rewrite sort_pairs_perm, map_fst_indexed. reflexivity. Qed.

Lemma sort_pairs_nth v p i x : nth_error (sort_pairs ltA v) p = Some (i, x) -> nth_error v i = Some x.
Proof.
  intros H. apply nth_error_In in H. apply (Permutation_in _ (sort_pairs_perm v)) in H. apply in_indexed in H. exact H.
Qed.

Lemma sort_nth v p i : nth_error (sort ltA v) p = Some i ->
  exists x, nth_error (sort_pairs ltA v) p = Some (i, x) /\ nth_error v i = Some x.
Proof.
  unfold sort. intros H. rewrite nth_error_map in H. destruct (nth_error (sort_pairs ltA v) p) as [[j x]|] eqn:E; [|discriminate].
  injection H as ->. exists x. split; [reflexivity|]. eapply sort_pairs_nth; exact E.
Qed.

Lemma sort_stable v : stable_sorting ltA v (sort ltA v).
Proof.
  split; [apply sort_perm|]. intros p q i j x y Hpq Hi Hj Hx Hy.
  destruct (sort_nth v p i Hi) as (x' & P1 & P2). destruct (sort_nth v q j Hj) as (y' & Q1 & Q2).
  assert (x' = x) by congruence. assert (y' = y) by congruence. subst.
  destruct (sort_pairs_ordered v p q _ _ Hpq P1 Q1) as [H|[H1 H2]]; cbn [fst snd] in *.
  - split; [apply W; exact H|]. intros [H3 _]. congruence.
  - split; [exact H1|]. intros _. exact H2.
Qed.

Lemma sort_unique v r : stable_sorting ltA v r -> r = sort ltA v.
Proof.
  intros [P1 O1]. destruct (sort_stable v) as [P2 O2].
  set (R := fun i j => exists x y, nth_error v i = Some x /\ nth_error v j = Some y /\
     ltA y x = false /\ (equiv ltA x y -> i < j)).
  assert (Val : forall i, In i (seq 0 (length v)) -> exists x, nth_error v i = Some x).
  { intros i Hi. apply in_seq in Hi. destruct (nth_error v i) eqn:E; [eauto|]. apply nth_error_None in E. lia. }
  apply (ordered_perm_unique _ R).
  - intros i j _ _ (x & y & X & Y & H1 & H2) (y' & x' & Y' & X' & H3 & H4).
    assert (x' = x) by congruence. assert (y' = y) by congruence. subst.
    pose proof (H2 (conj H3 H1)). pose proof (H4 (conj H1 H3)). lia.
  - rewrite P1, P2. reflexivity.
  - intros p q i j Hpq Hi Hj.
    destruct (Val i) as [x X]; [eapply Permutation_in; [exact P1|eapply nth_error_In; exact Hi]|].
    destruct (Val j) as [y Y]; [eapply Permutation_in; [exact P1|eapply nth_error_In; exact Hj]|].
    exists x, y. split; [assumption|]. split; [assumption|]. eapply O1; eassumption.
  - intros p q i j Hpq Hi Hj.
    destruct (Val i) as [x X]; [eapply Permutation_in; [exact P2|eapply nth_error_In; exact Hi]|].
    destruct (Val j) as [y Y]; [eapply Permutation_in; [exact P2|eapply nth_error_In; exact Hj]|].
    exists x, y. split; [assumption|]. split; [assumption|]. eapply O2; eassumption.
Qed.

(* inplace_sort and sort agree *)
Lemma insert_map_snd (p : nat * A) l :
  map snd (insert (fun p q => ltA (snd p) (snd q)) p l) = insert ltA (snd p) (map snd l).
Proof. induction l as [|q l IH]; [reflexivity|]. cbn [insert map]. destruct (ltA (snd q) (snd p)); [cbn [map]; rewrite IH|]; reflexivity. Qed.
Lemma stable_sort_map_snd (l : list (nat * A)) :
  map snd (stable_sort (fun p q => ltA (snd p) (snd q)) l) = stable_sort ltA (map snd l).
Proof.
  induction l as [|p l IH]; [reflexivity|]. cbn [stable_sort fold_right map].
  rewrite insert_map_snd. f_equal. exact IH.
Qed.
Lemma inplace_sort_pairs v : inplace_sort ltA v = map snd (sort_pairs ltA v).
Proof. unfold sort_pairs. rewrite stable_sort_map_snd, map_snd_indexed. reflexivity. Qed.

Lemma at_sort v : at_ids v (sort ltA v) = Ok (inplace_sort ltA v).
Proof.
  rewrite inplace_sort_pairs. unfold at_ids, sort.
  assert (G : forall l : list (nat * A), (forall p, In p l -> nth_error v (fst p) = Some (snd p)) ->
            omapl (oget v) (map fst l) = Ok (map snd l)).
  { induction l as [|p l IH]; intros H; [reflexivity|]. cbn [map omapl]. unfold oget at 1.
    rewrite (H p) by (simpl; auto). cbn [obind]. rewrite IH by (intros; apply H; simpl; auto). reflexivity. }
  apply G. intros [i x] Hp. apply (Permutation_in _ (sort_pairs_perm v)) in Hp. apply in_indexed in Hp. exact Hp.
Qed.
End SortIds.

(* ---- is_sorted ---- *)
Lemma is_sorted_loop A (ltA : A -> A -> bool) v : forall n s b, s + n <= length v -> 1 <= s ->
  exists b', ofold (fun acc i =>
      if acc : bool then x <- oget v (i - 1) ;; y <- oget v i ;; Ok (ltA x y) else Ok false) (seq s n) b = Ok b' /\
   (b' = true <-> b = true /\ forall i x y, s <= i + 1 < s + n -> nth_error v i = Some x -> nth_error v (i + 1) = Some y -> ltA x y = true).
Proof.
  induction n as [|n IH]; intros s b Hs H1; cbn [seq ofold].
  - exists b. split; [reflexivity|]. split; [intros ->; split; [reflexivity|intros; lia]|tauto].
  - destruct b.
    + unfold oget at 1 2. destruct (nth_error v (s - 1)) as [x|] eqn:Ex; [|apply nth_error_None in Ex; lia].
      destruct (nth_error v s) as [y|] eqn:Ey; [|apply nth_error_None in Ey; lia]. cbn [obind].
      destruct (IH (S s) (ltA x y) ltac:(lia) ltac:(lia)) as (b' & E & I). exists b'. split; [exact E|].
      rewrite I. split.
      * intros [H2 H3]. split; [reflexivity|]. intros i a c Hi Ha Hc.
        destruct (Nat.eq_dec (i + 1) s) as [<-|Hn].
        -- rewrite Nat.add_sub in Ex. congruence.
        -- apply (H3 i); [lia|assumption|assumption].
      * intros [_ H2]. split.
        -- apply (H2 (s - 1) x y); [lia|assumption|]. replace (s - 1 + 1) with s by lia. assumption.
        -- intros i a c Hi. apply H2. lia.
    + cbn [obind]. destruct (IH (S s) false ltac:(lia) ltac:(lia)) as (b' & E & I). exists b'. split; [exact E|].
      rewrite I. split; intros [H _]; discriminate.
Qed.

Lemma is_sorted_spec A (ltA : A -> A -> bool) v : v <> [] ->
  exists b, is_sorted ltA v = Ok b /\
   (b = true <-> forall i x y, nth_error v i = Some x -> nth_error v (i + 1) = Some y -> ltA x y = true).
Proof.
  intros Hv. unfold is_sorted. destruct (length v) as [|n] eqn:L; [destruct v; [congruence|discriminate]|].
  cbn [Nat.sub]. rewrite Nat.sub_0_r.
  destruct (is_sorted_loop A ltA v n 1 true ltac:(lia) ltac:(lia)) as (b & E & I). exists b. split; [exact E|].
  rewrite I. split.
  - intros [_ H] i x y Hx Hy. apply (H i); try assumption. assert (i + 1 < length v) by (apply nth_error_Some; congruence). lia.
  - intros H. split; [reflexivity|]. intros i x y _. apply H.
Qed.

Lemma is_sorted_strict A (ltA : A -> A -> bool) v : weak_order ltA -> v <> [] ->
  exists b, is_sorted ltA v = Ok b /\ (b = true <-> strictly_ascending ltA v).
Proof.
  intros W Hv. destruct (is_sorted_spec A ltA v Hv) as (b & E & I). exists b. split; [exact E|].
  rewrite I. split.
  - intros H. intros i j. revert i. induction j as [|j IH]; intros i x y Hij Hx Hy; [lia|].
    destruct (Nat.eq_dec i j) as [->|Hn].
    + apply (H j); [assumption|]. rewrite Nat.add_1_r. assumption.
    + destruct (nth_error v j) as [z|] eqn:Ez.
      * apply (lt_trans ltA W x z y); [apply (IH i); [lia|assumption|reflexivity]|].
        apply (H j); [assumption|]. rewrite Nat.add_1_r. assumption.
      * apply nth_error_None in Ez. assert (S j < length v) by (apply nth_error_Some; congruence). lia.
  - intros H i x y. apply H. lia.
Qed.
