From Verif Require Import Base IndexProofs VecModel VecProofs VecProofs2 OrderModel OrderSpec OrderProofs.
From Coq Require Import ZifyBool.

(* ---- unique ---- *)
Section Unique.
Context {A : Type} (ltA ne : A -> A -> bool).

Fixpoint uniq (last : A) (l : list (nat * A)) : list (nat * A) :=
  match l with
  | [] => []
  | (i, x) :: t => if ne x last then (i, x) :: uniq x t else uniq last t
  end.

Lemma unique_loop_pairs v : forall l last, (forall p, In p l -> nth_error v (fst p) = Some (snd p)) ->
  unique_loop ne v last (map fst l) = Ok (map fst (uniq last l)).
Proof.
  induction l as [|[i x] l IH]; intros last H; [reflexivity|]. cbn [map fst unique_loop uniq]. unfold oget at 1.
  pose proof (H (i, x) ltac:(simpl; auto)) as Hx. cbn [fst snd] in Hx. rewrite Hx. cbn [obind].
  destruct (ne x last); rewrite IH by (intros; apply H; simpl; auto); reflexivity.
Qed.

Lemma unique_loop_checked_pairs v : forall l last, (forall p, In p l -> nth_error v (fst p) = Some (snd p)) ->
  unique_loop_checked ne v last (map fst l) = Ok (map fst (uniq last l)).
Proof.
  induction l as [|[i x] l IH]; intros last H; [reflexivity|]. cbn [map fst unique_loop_checked uniq]. unfold oget at 1.
  pose proof (H (i, x) ltac:(simpl; auto)) as Hx. cbn [fst snd] in Hx. rewrite Hx.
  assert (i < length v) by (apply nth_error_Some; congruence). destruct (Nat.ltb_spec i (length v)); [|lia].
  cbn [check obind].
  destruct (ne x last); rewrite IH by (intros; apply H; simpl; auto); reflexivity.
Qed.

Lemma uniq_incl : forall l last p, In p (uniq last l) -> In p l.
Proof.
  induction l as [|[i x] l IH]; intros last p; [auto|]. cbn [uniq]. destruct (ne x last); intros H.
  - destruct H as [<-|H]; [simpl; auto|right; eapply IH; exact H].
  - right; eapply IH; exact H.
Qed.

Hypothesis W : weak_order ltA.

(* last is not above anything in l *)
Lemma uniq_sorted : forall l last,
  (forall p, In p l -> ltA (snd p) last = false) ->
  (forall x y, (x = last \/ In x (map snd l)) -> (y = last \/ In y (map snd l)) -> ne x y = ltA x y || ltA y x) ->
  ordered (fun p q => ltA (snd q) (snd p) = false) l ->
  (forall p, In p (uniq last l) -> ltA last (snd p) = true) /\
  ordered (fun p q => ltA (snd p) (snd q) = true) (uniq last l) /\
  (forall q, In q l -> equiv ltA last (snd q) \/ exists p, In p (uniq last l) /\ equiv ltA (snd p) (snd q)).
Proof.
  induction l as [|[i x] l IH]; intros last Hl Hn O.
  - cbn [uniq]. split; [intros ? []|]. split; [apply ordered_nil|intros ? []].
  - rewrite ordered_cons in O. destruct O as [O1 O2]. cbn [uniq].
    assert (Hx : ltA x last = false) by (apply (Hl (i, x)); simpl; auto).
    rewrite (Hn x last) by (simpl; auto). rewrite Hx. cbn [orb].
    destruct (ltA last x) eqn:E.
    + destruct (IH x) as (I1 & I2 & I3).
      { intros p Hp. apply (O1 p Hp). }
      { intros a b Ha Hb. apply Hn; [destruct Ha as [->|Ha]|destruct Hb as [->|Hb]]; simpl; auto. }
      { exact O2. }
      split; [|split].
      * intros p [<-|Hp]; [exact E|]. eapply lt_trans; [exact W|exact E|]. apply I1; exact Hp.
      * rewrite ordered_cons. split; [|exact I2]. intros p Hp. apply I1; exact Hp.
      * intros q [<-|Hq].
        -- right. exists (i, x). split; [simpl; auto|]. split; apply lt_irrefl; exact W.
        -- destruct (I3 q Hq) as [H|(p & Hp & H)].
           ++ right. exists (i, x). split; [simpl; auto|exact H].
           ++ right. exists p. split; [simpl; auto|exact H].
    + destruct (IH last) as (I1 & I2 & I3).
      { intros p Hp. apply Hl; simpl; auto. }
      { intros a b Ha Hb. apply Hn; [destruct Ha as [->|Ha]|destruct Hb as [->|Hb]]; simpl; auto. }
      { exact O2. }
      split; [exact I1|]. split; [exact I2|]. intros q [<-|Hq]; [left; split; assumption|]. apply I3; exact Hq.
Qed.

(* kept indices are the smallest among equivalent elements *)
Lemma uniq_first : forall l last,
  (forall p, In p l -> ltA (snd p) last = false) ->
  (forall x y, (x = last \/ In x (map snd l)) -> (y = last \/ In y (map snd l)) -> ne x y = ltA x y || ltA y x) ->
  ordered (Rp ltA) l ->
  forall p q, In p (uniq last l) -> In q l -> equiv ltA (snd p) (snd q) -> fst p <= fst q.
Proof.
  assert (RpO : forall l, ordered (Rp ltA) l -> ordered (fun p q : nat * A => ltA (snd q) (snd p) = false) l).
  { intros l. apply ordered_impl. intros p q _ _ [H|[H _]]; [apply W; exact H|exact H]. }
  induction l as [|[i x] l IH]; intros last Hl Hn O p q Hp Hq Eq; [destruct Hq|].
  pose proof (RpO _ O) as O'. rewrite ordered_cons in O, O'. destruct O as [O1 O2]. destruct O' as [O1' O2'].
  cbn [uniq] in Hp.
  assert (Hx : ltA x last = false) by (apply (Hl (i, x)); simpl; auto).
  rewrite (Hn x last) in Hp by (simpl; auto). rewrite Hx in Hp. cbn [orb] in Hp.
  assert (Hnx : forall a b, (a = x \/ In a (map snd l)) -> (b = x \/ In b (map snd l)) -> ne a b = ltA a b || ltA b a).
  { intros a b Ha Hb. apply Hn; [destruct Ha as [->|Ha]|destruct Hb as [->|Hb]]; simpl; auto. }
  assert (Hnl : forall a b, (a = last \/ In a (map snd l)) -> (b = last \/ In b (map snd l)) -> ne a b = ltA a b || ltA b a).
  { intros a b Ha Hb. apply Hn; [destruct Ha as [->|Ha]|destruct Hb as [->|Hb]]; simpl; auto. }
  destruct (ltA last x) eqn:E.
  - destruct Hp as [<-|Hp].
    + destruct Hq as [<-|Hq]; [lia|]. destruct (O1 q Hq) as [H|[_ H]]; cbn [fst snd] in *; [|lia].
      destruct Eq as [Eq _]. congruence.
    + destruct Hq as [<-|Hq].
      * destruct (uniq_sorted l x O1' Hnx O2') as (I1 & _ & _). specialize (I1 p Hp). cbn [snd] in *.
        destruct Eq as [_ Eq]. congruence.
      * eapply (IH x); eassumption.
  - assert (Hlast : forall p, In p l -> ltA (snd p) last = false) by (intros; apply Hl; simpl; auto).
    destruct Hq as [<-|Hq].
    + destruct (uniq_sorted l last Hlast Hnl O2') as (I1 & _ & _). specialize (I1 p Hp). cbn [snd] in *.
      exfalso. destruct Eq as [E1 E2]. destruct W as [As Co]. destruct (Co _ x _ I1); congruence.
    + eapply (IH last); eassumption.
Qed.

(* results for a list l of (index, value) pairs that is sorted *)
Definition uniq_of (l : list (nat * A)) : list (nat * A) :=
  match l with [] => [] | (i, x) :: t => (i, x) :: uniq x t end.

Lemma uniq_of_spec l : differs ltA ne (map snd l) ->
  ordered (fun p q => ltA (snd q) (snd p) = false) l ->
  ordered (fun p q => ltA (snd p) (snd q) = true) (uniq_of l) /\
  (forall p, In p (uniq_of l) -> In p l) /\
  (forall q, In q l -> exists p, In p (uniq_of l) /\ equiv ltA (snd p) (snd q)).
Proof.
  intros D O. destruct l as [|[i x] l]; [split; [apply ordered_nil|split; intros ? []]|].
  rewrite ordered_cons in O. destruct O as [O1 O2]. cbn [uniq_of].
  destruct (uniq_sorted l x) as (I1 & I2 & I3).
  - exact O1.
  - intros a b Ha Hb. apply D; [destruct Ha as [->|Ha]|destruct Hb as [->|Hb]]; simpl; auto.
  - exact O2.
  - split; [rewrite ordered_cons; split; [exact I1|exact I2]|]. split.
    + intros p [<-|Hp]; [simpl; auto|right; eapply uniq_incl; exact Hp].
    + intros q [<-|Hq].
      * exists (i, x). split; [simpl; auto|]. split; apply lt_irrefl; exact W.
      * destruct (I3 q Hq) as [H|(p & Hp & H)].
        -- exists (i, x). split; [simpl; auto|exact H].
        -- exists p. split; [simpl; auto|exact H].
Qed.

Lemma uniq_of_first l : differs ltA ne (map snd l) -> ordered (Rp ltA) l ->
  forall p q, In p (uniq_of l) -> In q l -> equiv ltA (snd p) (snd q) -> fst p <= fst q.
Proof.
  intros D O p q Hp Hq E.
  assert (O' : ordered (fun p q : nat * A => ltA (snd q) (snd p) = false) l).
  { revert O. apply ordered_impl. intros a b _ _ [H|[H _]]; [apply W; exact H|exact H]. }
  destruct l as [|[i x] l]; [destruct Hq|].
  rewrite ordered_cons in O, O'. destruct O as [O1 O2]. destruct O' as [O1' O2']. cbn [uniq_of] in Hp.
  assert (D' : forall a b, (a = x \/ In a (map snd l)) -> (b = x \/ In b (map snd l)) -> ne a b = ltA a b || ltA b a).
  { intros a b Ha Hb. apply D; [destruct Ha as [->|Ha]|destruct Hb as [->|Hb]]; simpl; auto. }
  destruct Hp as [<-|Hp].
  - destruct Hq as [<-|Hq]; [lia|]. destruct (O1 q Hq) as [H|[_ H]]; cbn [fst snd] in *; [|lia].
    destruct E as [E _]. congruence.
  - destruct Hq as [<-|Hq].
    + destruct (uniq_sorted l x O1' D' O2') as (I1 & _ & _). specialize (I1 p Hp). cbn [snd] in *.
      destruct E as [_ E]. congruence.
    + eapply (uniq_first l x); eassumption.
Qed.

Lemma indexed_val (v : list A) l : Permutation l (indexed v) -> forall p, In p l -> nth_error v (fst p) = Some (snd p).
Proof. intros P [i x] H. apply (Permutation_in _ P) in H. apply in_indexed in H. exact H. Qed.

Lemma unique_ids_pairs v : unique_ids ltA ne v = Ok (map fst (uniq_of (sort_pairs ltA v))).
Proof.
  unfold unique_ids. pose proof (sort_pairs_perm ltA v) as P. destruct v as [|a v]; [reflexivity|].
  set (w := a :: v) in *. unfold sort. destruct (sort_pairs ltA w) as [|[i x] l] eqn:E.
  - apply Permutation_length in P. discriminate.
  - pose proof (indexed_val w _ P) as V.
    cbn [map fst skipn]. unfold oget at 1. cbn [nth_error obind]. unfold oget.
    pose proof (V (i, x) ltac:(simpl; auto)) as Hx. cbn [fst snd] in Hx. rewrite Hx. cbn [obind].
    rewrite unique_loop_pairs by (intros; apply V; simpl; auto). reflexivity.
Qed.

Lemma unique_ids_sorted_pairs v : unique_ids_sorted ne v = Ok (map fst (uniq_of (indexed v))).
Proof.
  destruct v as [|a v]; [reflexivity|]. unfold unique_ids_sorted. cbn [length]. rewrite Nat.sub_succ, Nat.sub_0_r.
  replace (seq 1 (length v)) with (map fst (combine (seq 1 (length v)) v)) by (apply map_fst_combine; apply seq_length).
  rewrite unique_loop_pairs.
  - cbn [obind]. unfold indexed. cbn [length seq combine uniq_of map fst]. reflexivity.
  - intros [i x] H. apply (in_indexed _ (a :: v)). unfold indexed. cbn [length seq combine]. right. exact H.
Qed.

Lemma unique_ids_with_pairs v sid l : map fst l = sid -> (forall p, In p l -> nth_error v (fst p) = Some (snd p)) ->
  unique_ids_with ne v sid = Ok (map fst (uniq_of l)).
Proof.
  intros <- V. destruct l as [|[i x] l]; [reflexivity|]. cbn [map fst unique_ids_with uniq_of].
  pose proof (V (i, x) ltac:(simpl; auto)) as Hx. cbn [fst snd] in Hx. unfold oget. rewrite Hx.
  assert (i < length v) by (apply nth_error_Some; congruence). destruct (Nat.ltb_spec i (length v)); [|lia].
  cbn [check obind]. rewrite unique_loop_checked_pairs by (intros; apply V; simpl; auto). reflexivity.
Qed.

Lemma at_ids_pairs (v : list A) l : (forall p, In p l -> nth_error v (fst p) = Some (snd p)) ->
  at_ids v (map fst l) = Ok (map snd l).
Proof.
  unfold at_ids. induction l as [|p l IH]; intros H; [reflexivity|]. cbn [map omapl]. unfold oget at 1.
  rewrite (H p) by (simpl; auto). cbn [obind]. rewrite IH by (intros; apply H; simpl; auto). reflexivity.
Qed.

(* pairs for a given list of valid indices *)
Lemma ids_pairs (v : list A) sid vals : at_ids v sid = Ok vals ->
  exists l, map fst l = sid /\ map snd l = vals /\ forall p, In p l -> nth_error v (fst p) = Some (snd p).
Proof.
  unfold at_ids. intros H. apply omapl_Ok_inv in H. induction H as [|i x sid vals Hx H IH].
  - exists []. repeat split. intros ? [].
  - destruct IH as (l & I1 & I2 & I3). exists ((i, x) :: l). cbn [map fst snd]. split; [congruence|]. split; [congruence|].
    intros p [<-|Hp]; [apply oget_Ok in Hx; exact Hx|auto].
Qed.

Lemma sort_pairs_values v : Permutation (map snd (sort_pairs ltA v)) v.
Proof. rewrite (sort_pairs_perm ltA v), map_snd_indexed. reflexivity. Qed.

Lemma at_ids_values (v : list A) ids vals : at_ids v ids = Ok vals <-> map (nth_error v) ids = map Some vals.
Proof.
  unfold at_ids. revert vals. induction ids as [|i ids IH]; intros vals; cbn [omapl map].
  - split; [intros H; injection H as <-; reflexivity|]. destruct vals; [reflexivity|discriminate].
  - unfold oget at 1. destruct (nth_error v i) as [x|] eqn:E; cbn [obind].
    + split.
      * intros H. apply obind_Ok in H. destruct H as (r & H1 & H2). injection H2 as <-. cbn [map].
        f_equal. apply IH. exact H1.
      * destruct vals as [|y vals]; [discriminate|]. cbn [map]. intros H. injection H as <- H.
        apply IH in H. rewrite H. reflexivity.
    + split; [discriminate|]. destruct vals; discriminate.
Qed.

Lemma uniq_of_result v l : Permutation l (indexed v) -> differs ltA ne v ->
  ordered (Rp ltA) l -> unique_result ltA v (map fst (uniq_of l)) /\ unique_first ltA v (map fst (uniq_of l)).
Proof.
  intros P D O. pose proof (indexed_val v l P) as V.
  assert (PV : Permutation (map snd l) v) by (rewrite P, map_snd_indexed; reflexivity).
  assert (D' : differs ltA ne (map snd l)).
  { intros x y Hx Hy. apply D; eapply Permutation_in; eassumption. }
  assert (O' : ordered (fun p q : nat * A => ltA (snd q) (snd p) = false) l).
  { revert O. apply ordered_impl. intros a b _ _ [H|[H _]]; [apply W; exact H|exact H]. }
  destruct (uniq_of_spec l D' O') as (S1 & S2 & S3). split.
  - exists (map snd (uniq_of l)). split; [apply at_ids_values, at_ids_pairs; auto|].
    split; [unfold strictly_ascending; apply ordered_map; exact S1|]. split.
    + intros x Hx. apply (Permutation_in _ (Permutation_sym PV)) in Hx. apply in_map_iff in Hx.
      destruct Hx as (q & <- & Hq). destruct (S3 q Hq) as (p & Hp & E). exists (snd p). split; [apply in_map; exact Hp|exact E].
    + intros y Hy. apply in_map_iff in Hy. destruct Hy as (p & <- & Hp). eapply Permutation_in; [exact PV|]. apply in_map; auto.
  - intros i j x y Hi Hx Hy E. apply in_map_iff in Hi. destruct Hi as (p & <- & Hp).
    assert (snd p = x) by (specialize (V p (S2 p Hp)); congruence).
    apply (uniq_of_first l D' O p (j, y) Hp).
    + eapply Permutation_in; [apply Permutation_sym; exact P|]. apply in_indexed. exact Hy.
    + cbn [snd]. rewrite H. exact E.
Qed.

Lemma indexed_ascending v : ascending ltA v -> ordered (Rp ltA) (indexed v).
Proof.
  intros H. intros p q [i x] [j y] Hpq Hp Hq. right. cbn [fst snd]. split.
  - assert (Hv : ordered (fun a b : nat * A => ltA (snd b) (snd a) = false) (indexed v)).
    { rewrite <- (ordered_map _ _ snd (fun a b => ltA b a = false)). rewrite map_snd_indexed. exact H. }
    apply (Hv p q (i, x) (j, y) Hpq Hp Hq).
  - apply (ordered_indexed _ v p q _ _ Hpq Hp Hq).
Qed.

Lemma unique_ids_spec v : differs ltA ne v ->
  exists r, unique_ids ltA ne v = Ok r /\ unique_result ltA v r /\ unique_first ltA v r.
Proof.
  intros D. rewrite unique_ids_pairs. eexists. split; [reflexivity|].
  apply uniq_of_result; [apply sort_pairs_perm|exact D|apply sort_pairs_ordered; exact W].
Qed.
Lemma unique_ids_sorted_spec v : differs ltA ne v -> ascending ltA v ->
  exists r, unique_ids_sorted ne v = Ok r /\ unique_result ltA v r /\ unique_first ltA v r.
Proof.
  intros D O. rewrite unique_ids_sorted_pairs. eexists. split; [reflexivity|].
  apply uniq_of_result; [reflexivity|exact D|apply indexed_ascending; exact O].
Qed.
Lemma unique_ids_with_spec v sid vals : differs ltA ne v -> at_ids v sid = Ok vals -> ascending ltA vals ->
  exists r vals', unique_ids_with ne v sid = Ok r /\ at_ids v r = Ok vals' /\ strictly_ascending ltA vals' /\
    (forall x, In x vals -> exists y, In y vals' /\ equiv ltA y x) /\ (forall i, In i r -> In i sid).
Proof.
  intros D H O. destruct (ids_pairs v sid vals H) as (l & L1 & L2 & V).
  rewrite (unique_ids_with_pairs v sid l L1 V).
  assert (D' : differs ltA ne (map snd l)).
  { intros x y Hx Hy. apply in_map_iff in Hx, Hy. destruct Hx as (p & <- & Hp). destruct Hy as (q & <- & Hq).
    apply D; eapply nth_error_In; apply V; eassumption. }
  destruct (uniq_of_spec l D') as (S1 & S2 & S3).
  { rewrite <- L2 in O. unfold ascending in O. rewrite ordered_map in O. exact O. }
  exists (map fst (uniq_of l)), (map snd (uniq_of l)). split; [reflexivity|].
  split; [apply at_ids_pairs; auto|]. split; [unfold strictly_ascending; apply ordered_map; exact S1|]. split.
  - intros x Hx. rewrite <- L2 in Hx. apply in_map_iff in Hx. destruct Hx as (q & <- & Hq).
    destruct (S3 q Hq) as (p & Hp & E). exists (snd p). split; [apply in_map; exact Hp|exact E].
  - intros i Hi. apply in_map_iff in Hi. destruct Hi as (p & <- & Hp). rewrite <- L1. apply in_map; auto.
Qed.
End Unique.

(* ---- match ---- *)
Section Match.
Context {A : Type} (ltA rlt eqA : A -> A -> bool).

Lemma first_match_spec x : forall v2 s,
  match first_match eqA x s v2 with
  | Some j => s <= j /\ (exists y, nth_error v2 (j - s) = Some y /\ eqA y x = true) /\
              forall j' y, s <= j' < j -> nth_error v2 (j' - s) = Some y -> eqA y x = false
  | None => forall j y, nth_error v2 j = Some y -> eqA y x = false
  end.
Proof.
  induction v2 as [|y v2 IH]; intros s; cbn [first_match]; [intros [|j] y H; discriminate|].
  destruct (eqA y x) eqn:E.
  - split; [lia|]. rewrite Nat.sub_diag. split; [exists y; auto|]. intros; lia.
  - specialize (IH (S s)). destruct (first_match eqA x (S s) v2) as [j|].
    + destruct IH as (H1 & (z & H2 & H3) & H4). split; [lia|].
      replace (j - s) with (S (j - S s)) by lia. split; [exists z; auto|]. intros j' z' Hj Hz.
      destruct (Nat.eq_dec j' s) as [->|Hn]; [rewrite Nat.sub_diag in Hz; cbn in Hz; congruence|].
      apply (H4 j' z'); [lia|]. replace (j' - s) with (S (j' - S s)) in Hz by lia. exact Hz.
    + intros [|j] z Hz; cbn [nth_error] in Hz; [congruence|eapply IH; exact Hz].
Qed.

Lemma match_brute_in v1 v2 i j : In (i, j) (match_brute eqA v1 v2) <->
  exists x, nth_error v1 i = Some x /\ first_match eqA x 0 v2 = Some j.
Proof.
  unfold match_brute. rewrite in_flat_map. split.
  - intros ([k x] & H1 & H2). apply in_indexed in H1.
    destruct (first_match eqA x 0 v2) as [j'|] eqn:E; [|destruct H2]. destruct H2 as [H2|[]].
    injection H2 as -> ->. eauto.
  - intros (x & H1 & H2). exists (i, x). split; [apply in_indexed; exact H1|]. rewrite H2. simpl; auto.
Qed.

Lemma match_brute_sorted v1 v2 : ordered lt (map fst (match_brute eqA v1 v2)).
Proof.
  apply ordered_map. unfold match_brute. generalize (ordered_indexed _ v1). induction (indexed v1) as [|[i x] l IH]; intros O.
  - apply ordered_nil.
  - rewrite ordered_cons in O. destruct O as [O1 O2]. cbn [flat_map]. apply ordered_app.
    split; [|split; [apply IH; exact O2|]].
    + destruct (first_match eqA x 0 v2); [|apply ordered_nil]. rewrite ordered_cons. split; [intros ? []|apply ordered_nil].
    + intros p q Hp Hq. apply in_flat_map in Hq. destruct Hq as ([k y] & H1 & H2).
      specialize (O1 _ H1). cbn [fst] in O1.
      destruct (first_match eqA x 0 v2); [|destruct Hp]. destruct Hp as [<-|[]].
      destruct (first_match eqA y 0 v2); [|destruct H2]. destruct H2 as [<-|[]]. exact O1.
Qed.

Lemma match_merge_sound : forall s1 s2 i j, In (i, j) (match_merge rlt s1 s2) ->
  exists x y, In (i, x) s1 /\ In (j, y) s2 /\ rlt x y = false /\ rlt y x = false.
Proof.
  induction s1 as [|[a x] t1 IH1]; [intros [|? ?] ? ? []|].
  induction s2 as [|[b y] t2 IH2]; intros i j H; [destruct H|].
  change (match_merge rlt ((a, x) :: t1) ((b, y) :: t2)) with
    (if rlt x y then match_merge rlt t1 ((b, y) :: t2) else if rlt y x then match_merge rlt ((a, x) :: t1) t2
     else (a, b) :: match_merge rlt t1 t2) in H.
  destruct (rlt x y) eqn:E1; [|destruct (rlt y x) eqn:E2].
  - destruct (IH1 _ _ _ H) as (x' & y' & ? & ? & ? & ?). exists x', y'. simpl; auto.
  - destruct (IH2 _ _ H) as (x' & y' & ? & ? & ? & ?). exists x', y'. simpl; auto.
  - destruct H as [H|H].
    + injection H as <- <-. exists x, y. simpl; auto.
    + destruct (IH1 _ _ _ H) as (x' & y' & ? & ? & ? & ?). exists x', y'. simpl; auto.
Qed.

Hypothesis W : weak_order ltA.

Lemma match_merge_complete : forall s1 s2,
  (forall x y, In x (map snd s1) -> In y (map snd s2) -> rlt x y = ltA x y /\ rlt y x = ltA y x) ->
  ordered (fun p q => ltA (snd p) (snd q) = true) s1 ->
  ordered (fun p q => ltA (snd p) (snd q) = true) s2 ->
  forall i j x y, In (i, x) s1 -> In (j, y) s2 -> equiv ltA x y -> In (i, j) (match_merge rlt s1 s2).
Proof.
  destruct W as [As Co].
  induction s1 as [|[a x0] t1 IH1]; [intros s2 _ _ _ ? ? ? ? []|].
  induction s2 as [|[b y0] t2 IH2]; intros HR O1 O2 i j x y Hi Hj E; [destruct Hj|].
  change (match_merge rlt ((a, x0) :: t1) ((b, y0) :: t2)) with
    (if rlt x0 y0 then match_merge rlt t1 ((b, y0) :: t2) else if rlt y0 x0 then match_merge rlt ((a, x0) :: t1) t2
     else (a, b) :: match_merge rlt t1 t2).
  destruct (HR x0 y0) as [R1 R2]; [simpl; auto|simpl; auto|]. rewrite R1, R2.
  pose proof O1 as O1'. pose proof O2 as O2'.
  rewrite ordered_cons in O1, O2. destruct O1 as [A1 B1]. destruct O2 as [A2 B2].
  assert (GY : forall y, In (j, y) ((b, y0) :: t2) -> y0 = y /\ b = j \/ ltA y0 y = true).
  { intros z [Hz|Hz]; [injection Hz as <- <-; auto|]. right. apply (A2 _ Hz). }
  assert (GX : forall x, In (i, x) ((a, x0) :: t1) -> x0 = x /\ a = i \/ ltA x0 x = true).
  { intros z [Hz|Hz]; [injection Hz as <- <-; auto|]. right. apply (A1 _ Hz). }
  destruct E as [E1 E2].
  destruct (ltA x0 y0) eqn:C1; [|destruct (ltA y0 x0) eqn:C2].
  - apply (IH1 ((b, y0) :: t2)) with (x := x) (y := y); try assumption; try (split; assumption).
    + intros u w Hu Hw. apply HR; simpl in *; auto.
    + destruct Hi as [Hi|Hi]; [|assumption]. injection Hi as <- <-.
      destruct (GY y Hj) as [[-> _]|H]; [congruence|]. pose proof (lt_trans ltA W x0 y0 y C1 H). congruence.
  - apply (IH2) with (x := x) (y := y); try assumption; try (split; assumption).
    + intros u w Hu Hw. apply HR; simpl in *; auto.
    + destruct Hj as [Hj|Hj]; [|assumption]. injection Hj as <- <-.
      destruct (GX x Hi) as [[-> _]|H]; [congruence|]. pose proof (lt_trans ltA W y0 x0 x C2 H). congruence.
  - destruct Hi as [Hi|Hi]; destruct Hj as [Hj|Hj].
    + injection Hi as <- _. injection Hj as <- _. simpl; auto.
    + injection Hi as <- <-. specialize (A2 _ Hj). cbn [snd] in A2.
      destruct (Co y0 x0 y A2) as [H|H]; congruence.
    + injection Hj as <- <-. specialize (A1 _ Hi). cbn [snd] in A1.
      destruct (Co x0 y0 x A1) as [H|H]; congruence.
    + right. apply (IH1 t2) with (x := x) (y := y); try assumption; try (split; assumption).
      intros u w Hu Hw. apply HR; simpl in *; auto.
Qed.

(* no index is used twice *)
Lemma match_merge_nodup : forall s1 s2, NoDup (map fst s1) -> NoDup (map fst s2) ->
  NoDup (map fst (match_merge rlt s1 s2)) /\ NoDup (map snd (match_merge rlt s1 s2)).
Proof.
  assert (I : forall s1 s2 i j, In (i, j) (match_merge rlt s1 s2) -> In i (map fst s1) /\ In j (map fst s2)).
  { intros s1 s2 i j H. apply match_merge_sound in H. destruct H as (x & y & H1 & H2 & _).
    split; [apply (in_map fst) in H1; exact H1|apply (in_map fst) in H2; exact H2]. }
  induction s1 as [|[a x] t1 IH1]; [intros [|? ?]; split; constructor|].
  induction s2 as [|[b y] t2 IH2]; intros N1 N2; [split; constructor|].
  change (match_merge rlt ((a, x) :: t1) ((b, y) :: t2)) with
    (if rlt x y then match_merge rlt t1 ((b, y) :: t2) else if rlt y x then match_merge rlt ((a, x) :: t1) t2
     else (a, b) :: match_merge rlt t1 t2).
  inversion N1 as [|? ? Na N1']; subst. inversion N2 as [|? ? Nb N2']; subst.
  destruct (rlt x y); [|destruct (rlt y x)].
  - apply IH1; assumption.
  - apply IH2; assumption.
  - destruct (IH1 t2 N1' N2') as [D1 D2]. cbn [map fst snd]. split; constructor; try assumption.
    + intros H. apply in_map_iff in H. destruct H as ([i j] & <- & H). apply I in H. tauto.
    + intros H. apply in_map_iff in H. destruct H as ([i j] & <- & H). apply I in H. tauto.
Qed.

Lemma eq_equiv l x y : compares ltA rlt eqA l -> In x l -> In y l -> (eqA x y = true <-> equiv ltA x y).
Proof.
  intros C Hx Hy. destruct (C x y Hx Hy) as [_ ->]. unfold equiv.
  destruct (ltA x y), (ltA y x); simpl; split; try tauto; try (intros; discriminate); try (intros [? ?]; discriminate).
Qed.

Lemma match_sound v1 v2 i j : compares ltA rlt eqA (v1 ++ v2) -> In (i, j) (match_ ltA rlt eqA v1 v2) ->
  exists x y, nth_error v1 i = Some x /\ nth_error v2 j = Some y /\ equiv ltA x y.
Proof.
  intros C H. unfold match_ in H. destruct (_ <? 64).
  - apply match_brute_in in H. destruct H as (x & H1 & H2).
    pose proof (first_match_spec x v2 0) as S. rewrite H2 in S. destruct S as (_ & (y & H3 & H4) & _).
    rewrite Nat.sub_0_r in H3. exists x, y. split; [assumption|]. split; [assumption|].
    apply (eq_equiv (v1 ++ v2)) in H4; [destruct H4; split; assumption|assumption| |];
      apply in_or_app; [right|left]; eapply nth_error_In; eassumption.
  - apply match_merge_sound in H. destruct H as (x & y & H1 & H2 & H3 & H4).
    apply (Permutation_in _ (sort_pairs_perm ltA v1)), in_indexed in H1.
    apply (Permutation_in _ (sort_pairs_perm ltA v2)), in_indexed in H2.
    exists x, y. split; [assumption|]. split; [assumption|].
    assert (Ix : In x (v1 ++ v2)) by (apply in_or_app; left; eapply nth_error_In; eassumption).
    assert (Iy : In y (v1 ++ v2)) by (apply in_or_app; right; eapply nth_error_In; eassumption).
    destruct (C x y Ix Iy) as [E1 _]. destruct (C y x Iy Ix) as [E2 _]. split; congruence.
Qed.

Lemma sorted_strict v : all_different ltA v ->
  ordered (fun p q => ltA (snd p) (snd q) = true) (sort_pairs ltA v).
Proof.
  intros D p q [i x] [j y] Hpq Hp Hq. cbn [snd].
  destruct (sort_pairs_ordered ltA W v p q _ _ Hpq Hp Hq) as [H|[H1 H2]]; cbn [fst snd] in *; [exact H|].
  destruct (ltA x y) eqn:E; [reflexivity|]. exfalso.
  apply (D i j x y H2); [eapply sort_pairs_nth; exact Hp|eapply sort_pairs_nth; exact Hq|split; assumption].
Qed.

Lemma match_complete v1 v2 i j x y : compares ltA rlt eqA (v1 ++ v2) -> all_different ltA v1 -> all_different ltA v2 ->
  nth_error v1 i = Some x -> nth_error v2 j = Some y -> equiv ltA x y -> In (i, j) (match_ ltA rlt eqA v1 v2).
Proof.
  intros C D1 D2 Hx Hy E. unfold match_. destruct (_ <? 64).
  - apply match_brute_in. exists x. split; [assumption|].
    pose proof (first_match_spec x v2 0) as S.
    assert (Ix : In x (v1 ++ v2)) by (apply in_or_app; left; eapply nth_error_In; eassumption).
    assert (Iy : forall k z, nth_error v2 k = Some z -> In z (v1 ++ v2)) by (intros; apply in_or_app; right; eapply nth_error_In; eassumption).
    destruct (first_match eqA x 0 v2) as [j'|].
    + destruct S as (_ & (z & H3 & H4) & _). rewrite Nat.sub_0_r in H3.
      apply (eq_equiv (v1 ++ v2)) in H4; [|assumption|eapply Iy; exact H3|exact Ix].
      assert (Ez : equiv ltA z y).
      { destruct W as [As Co]. destruct E as [E1 E2]. destruct H4 as [H4 H5]. split.
        - destruct (ltA z y) eqn:X; [|reflexivity]. destruct (Co z x y X); congruence.
        - destruct (ltA y z) eqn:X; [|reflexivity]. destruct (Co y x z X); congruence. }
      f_equal. destruct (lt_eq_lt_dec j' j) as [[Hlt|Heq]|Hgt]; [|assumption|].
      * exfalso. exact (D2 j' j z y Hlt H3 Hy Ez).
      * exfalso. destruct Ez. exact (D2 j j' y z Hgt Hy H3 ltac:(split; assumption)).
    + specialize (S j y Hy). assert (eqA y x = true); [|congruence].
      apply (eq_equiv (v1 ++ v2)); [assumption|eapply Iy; exact Hy|exact Ix|destruct E; split; assumption].
  - apply match_merge_complete with (x := x) (y := y); try (apply sorted_strict; assumption); try exact E.
    + intros u w Hu Hw.
      apply (Permutation_in _ (sort_pairs_values ltA v1)) in Hu. apply (Permutation_in _ (sort_pairs_values ltA v2)) in Hw.
      split; apply C; apply in_or_app; auto.
    + eapply Permutation_in; [apply Permutation_sym, sort_pairs_perm|]. apply in_indexed; assumption.
    + eapply Permutation_in; [apply Permutation_sym, sort_pairs_perm|]. apply in_indexed; assumption.
Qed.

Lemma match_nodup v1 v2 : NoDup (map fst (match_ ltA rlt eqA v1 v2)).
Proof.
  unfold match_. destruct (_ <? 64).
  - eapply ordered_NoDup; [|apply match_brute_sorted]. intros; simpl; lia.
  - apply match_merge_nodup; fold (sort ltA v1); fold (sort ltA v2).
    + eapply Permutation_NoDup; [apply Permutation_sym, sort_perm|apply seq_NoDup].
    + eapply Permutation_NoDup; [apply Permutation_sym, sort_perm|apply seq_NoDup].
Qed.

Lemma match_small v1 v2 i j : Nat.min (length v1) (length v2) < 64 ->
  (In (i, j) (match_ ltA rlt eqA v1 v2) <->
   exists x y, nth_error v1 i = Some x /\ nth_error v2 j = Some y /\ eqA y x = true /\
     forall j' y', j' < j -> nth_error v2 j' = Some y' -> eqA y' x = false).
Proof.
  intros H. unfold match_. destruct (Nat.ltb_spec (Nat.min (length v1) (length v2)) 64); [|lia].
  rewrite match_brute_in. split.
  - intros (x & H1 & H2). pose proof (first_match_spec x v2 0) as S. rewrite H2 in S.
    destruct S as (_ & (y & H3 & H4) & H5). rewrite Nat.sub_0_r in H3. exists x, y. repeat split; try assumption.
    intros j' y' Hj Hy. apply (H5 j' y'); [lia|]. rewrite Nat.sub_0_r; assumption.
  - intros (x & y & H1 & H2 & H3 & H4). exists x. split; [assumption|].
    pose proof (first_match_spec x v2 0) as S. destruct (first_match eqA x 0 v2) as [j'|].
    + destruct S as (_ & (z & S1 & S2) & S3). rewrite Nat.sub_0_r in S1. f_equal.
      destruct (lt_eq_lt_dec j' j) as [[Hlt|Heq]|Hgt]; [|assumption|].
      * specialize (H4 j' z Hlt S1). congruence.
      * specialize (S3 j y ltac:(lia)). rewrite Nat.sub_0_r in S3. specialize (S3 H2). congruence.
    + specialize (S j y H2). congruence.
Qed.
End Match.
