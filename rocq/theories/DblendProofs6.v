(* Lemmas on segmentation with deblending, part 6: the whole function. *)
From Coq Require Import NArith QArith ZifyBool ZifyNat Permutation Sorted.
From Verif Require Import Base IndexModel IndexProofs VecModel VecProofs VecProofs2 ImageModel ImageSpec ImageProofs
  ImageProofs2 ImageProofs3 ImageProofs4 SegModel SegSpec SegProofs SegProofs2 SegProofs4 OrderModel OrderSpec OrderProofs SdistSpec
  DblendModel DblendSpec DblendProofs DblendProofs2 DblendProofs3 DblendProofs4 DblendProofs5.
Local Open Scope nat_scope.

Lemma times_occ p l : times p l = occ l p.
Proof.
  unfold times, occ. induction l as [|q l IH]; [reflexivity|]. cbn [count_occ].
  destruct (point_dec q p), (prod_eq_dec_nat q p); congruence.
Qed.
Lemma drop_entries {A} eids : forall (l : list A) a,
  Forall2 (fun j x => nth_error l (j - a) = Some x) (filter (fun j => negb (existsb (Nat.eqb j) eids)) (seq a (length l)))
    (map snd (filter (fun p => negb (existsb (Nat.eqb (fst p)) eids)) (combine (seq a (length l)) l))).
Proof.
  induction l as [|x l IH]; intro a; cbn [length seq combine filter]; [constructor|].
  assert (G : Forall2 (fun j y => nth_error (x :: l) (j - a) = Some y) (filter (fun j => negb (existsb (Nat.eqb j) eids)) (seq (S a) (length l)))
    (map snd (filter (fun p => negb (existsb (Nat.eqb (fst p)) eids)) (combine (seq (S a) (length l)) l)))).
  { specialize (IH (S a)). revert IH.
    assert (GE : forall j, In j (filter (fun j => negb (existsb (Nat.eqb j) eids)) (seq (S a) (length l))) -> S a <= j).
    { intros j Hj. apply filter_In in Hj. destruct Hj as [Hj _]. apply in_seq in Hj. lia. }
    revert GE. generalize (filter (fun j => negb (existsb (Nat.eqb j) eids)) (seq (S a) (length l))). intros js GE IH.
    induction IH as [|j y js ys E IH' IH2]; constructor.
    - pose proof (GE j (or_introl eq_refl)). replace (j - a) with (S (j - S a)) by lia. exact E.
    - apply IH2. intros i Hi. apply GE. right. exact Hi. }
  cbn [fst]. destruct (negb (existsb (Nat.eqb a) eids)); [|exact G]. cbn [map snd]. constructor; [|exact G]. rewrite Nat.sub_diag. reflexivity.
Qed.
Lemma drop_ok {A} eids (l : list A) : Forall2 (fun j x => nth_error l j = Some x) (filter (fun j => negb (existsb (Nat.eqb j) eids)) (seq 0 (length l))) (drop_at eids l).
Proof.
  pose proof (drop_entries eids l 0) as H. unfold drop_at. revert H. generalize (map snd (filter (fun p => negb (existsb (Nat.eqb (fst p)) eids)) (combine (seq 0 (length l)) l))).
  generalize (filter (fun j => negb (existsb (Nat.eqb j) eids)) (seq 0 (length l))). intros js xs H.
  induction H as [|j x js xs E H IH]; constructor; [|exact IH]. rewrite Nat.sub_0_r in E. exact E.
Qed.
Lemma drop_nil {A} (l : list A) : drop_at [] l = l.
Proof.
  unfold drop_at. generalize 0. induction l as [|x l IH]; intro a; cbn [length seq combine filter existsb negb map snd]; [reflexivity|]. rewrite IH. reflexivity.
Qed.
Lemma kept_ids (f : nat -> bool) K :
  filter (fun j => negb (existsb (Nat.eqb j) (filter (fun j => negb (f j)) (seq 0 K)))) (seq 0 K) = filter f (seq 0 K).
Proof.
  apply filter_ext_in. intros j Hj. destruct (existsb (Nat.eqb j) (filter (fun j => negb (f j)) (seq 0 K))) eqn:E.
  - apply existsb_exists in E. destruct E as (x & Hx & Ex). apply Nat.eqb_eq in Ex. subst x. apply filter_In in Hx. destruct Hx as [_ Hx]. destruct (f j); [discriminate|reflexivity].
  - destruct (f j) eqn:F; [reflexivity|]. exfalso. apply Bool.not_true_iff_false in E. apply E, existsb_exists. exists j. split; [|apply Nat.eqb_refl].
    apply filter_In. split; [exact Hj|]. rewrite F. reflexivity.
Qed.
Lemma seq_sorted (f : nat -> bool) : forall K a, StronglySorted lt (filter f (seq a K)).
Proof.
  induction K as [|K IH]; intro a; cbn [seq filter]; [constructor|]. destruct (f a); [|apply IH]. constructor; [apply IH|].
  apply Forall_forall. intros x Hx. apply filter_In in Hx. destruct Hx as [Hx _]. apply in_seq in Hx. lia.
Qed.

Section Whole.
Context (v : img dbl) (W : wf v) (N0 : nr v * nc v <> 0) (P : params) (F0 : 0 < p_first P).
Notation n := (nr v).
Notation m := (nc v).
Notation im := (pix v).
Notation ing := (ing n m).
Notation pos := (pos m).
Notation val := (val m).
Notation first := (p_first P).
Notation vd := (val Nan im).

Lemma at_v p x : at_ v p = Some x <-> ing p /\ vd p = x.
Proof. apply at_some. exact W. Qed.
Lemma before_pos p q : ing p -> ing q -> (before q p <-> pos q < pos p).
Proof.
  destruct p as [a b], q as [c d]. unfold SegProofs.ing, before, SegProofs.pos. cbn [fst snd]. intros [A B] [C D]. split.
  - intros [E|[E F]]; [|nia]. assert (c + 1 <= a) by lia. nia.
  - intro E. destruct (Nat.lt_trichotomy c a) as [X|[X|X]]; [left; exact X|right; split; [exact X|subst; lia]|]. exfalso. assert (a + 1 <= c) by lia. nia.
Qed.
Lemma precedes_prec p q : precedes v p q <-> ing p /\ ing q /\ prec m im p q.
Proof.
  unfold precedes, prec. split.
  - intros (x & y & Ex & Ey & H). apply at_v in Ex, Ey. destruct Ex as [Ip <-], Ey as [Iq <-]. split; [exact Ip|]. split; [exact Iq|].
    destruct H as [H|(H1 & H2 & H3)]; [left; exact H|right]. split; [exact H1|]. split; [exact H2|]. apply before_pos; assumption.
  - intros (Ip & Iq & H). exists (vd p), (vd q). split; [apply at_v; auto|]. split; [apply at_v; auto|].
    destruct H as [H|(H1 & H2 & H3)]; [left; exact H|right]. split; [exact H1|]. split; [exact H2|]. apply before_pos; assumption.
Qed.
Lemma bright_brt t p : bright v t p <-> brt n m im t p.
Proof.
  unfold bright, brt. split.
  - intros ((q & E & H) & r & Hr). apply at_v in E. apply precedes_prec in Hr. destruct E as [Ip E], Hr as (_ & Ir & Hr).
    split; [exact Ip|]. split; [exists q; auto|]. exists r. auto.
  - intros (Ip & (q & E & H) & r & Ir & Hr). split; [exists q; split; [apply at_v; auto|exact H]|]. exists r. apply precedes_prec. auto.
Qed.
Lemma num_nm p : ing p -> num v p = nm m im p.
Proof.
  intro Ip. unfold num, nm. assert (E : at_ v p = Some (vd p)) by (apply at_v; auto). rewrite E. reflexivity.
Qed.

Section Detected.
Context (done : list point) (raw : list nat) (O : list point) (J : dinv n m P done raw O).
Context (HD : forall p, In p done <-> brt n m im (p_detect P) p).
Context (HP : forall a p c, done = a ++ p :: c -> forall q, In q done -> (In q a <-> prec m im q p)).
Notation rawi := (Img n m raw).
Lemma wfr : wf rawi.
Proof. exact (d_len _ _ _ _ _ _ J). Qed.
Lemma at_r p l : at_ rawi p = Some l <-> ing p /\ val 0 raw p = l.
Proof. exact (at_some 0 rawi p l wfr). Qed.
Lemma HO_ok k o : nth_error O k = Some o -> ing o /\ val 0 raw o = first + k.
Proof. intro E. destruct (d_pk _ _ _ _ _ _ J k o E) as [A B]. split; [apply (d_in _ _ _ _ _ _ J); exact A|exact B]. Qed.
Lemma HF_ok p : ing p -> val 0 raw p <> 0 -> finite (vd p) = true.
Proof.
  intros Ip H. apply (d_dom _ _ _ _ _ _ J p Ip), HD in H. destruct H as (_ & (q & E & _) & _). rewrite E. reflexivity.
Qed.
Lemma top_first : forall len a p c k o, length a <= len -> done = a ++ p :: c -> val 0 raw p = first + k -> nth_error O k = Some o ->
  p = o /\ began m P raw O a p \/ In o a.
Proof.
  induction len as [len IH] using lt_wf_ind. intros a p c k o L E V Eo. destruct (d_rule _ _ _ _ _ _ J a p c E) as [B|(q & Hq & _ & Vq & _)].
  - left. split; [|exact B]. destruct B as (k' & Ek & V' & _). assert (k' = k) by lia. congruence.
  - right. apply in_split in Hq. destruct Hq as (a1 & a2 & ->). rewrite app_length in L. cbn [length] in L.
    destruct (IH (length a1) ltac:(lia) a1 q (a2 ++ p :: c) k o (le_n _)) as [[-> _]|H].
    + rewrite E, <- app_assoc. reflexivity.
    + congruence.
    + exact Eo.
    + apply in_app_iff. right. left. reflexivity.
    + apply in_app_iff. left. exact H.
Qed.
Lemma nd_split a p c : done = a ++ p :: c -> ~ In p a.
Proof.
  intros E H. pose proof (d_nd _ _ _ _ _ _ J) as ND. rewrite E in ND. apply NoDup_remove_2 in ND. apply ND, in_app_iff. left. exact H.
Qed.
Lemma peak_began a p c : done = a ++ p :: c -> In p O -> exists k, nth_error O k = Some p /\ began m P raw O a p.
Proof.
  intros E H. apply In_nth_error in H. destruct H as [k Ek]. exists k. split; [exact Ek|]. destruct (HO_ok k p Ek) as [_ V].
  destruct (top_first (length a) a p c k p (le_n _) E V Ek) as [[_ B]|X]; [exact B|]. destruct (nd_split a p c E X).
Qed.
Lemma earlier a p c q : done = a ++ p :: c -> (In q a <-> bright v (p_detect P) q /\ precedes v q p).
Proof.
  intro E. assert (Hp : In p done) by (rewrite E; apply in_app_iff; right; left; reflexivity).
  pose proof (d_in _ _ _ _ _ _ J p Hp) as Ip. rewrite bright_brt, <- HD, precedes_prec. split.
  - intro H. assert (Hq : In q done) by (rewrite E; apply in_app_iff; left; exact H). split; [exact Hq|].
    split; [apply (d_in _ _ _ _ _ _ J); exact Hq|]. split; [exact Ip|]. apply (HP a p c E q Hq). exact H.
  - intros (Hq & _ & _ & H). apply (HP a p c E q Hq). exact H.
Qed.
Lemma rank_of q : In q done -> exists k o, k < length O /\ nth_error O k = Some o /\ val 0 raw q = first + k.
Proof.
  intro Hq. pose proof (d_in _ _ _ _ _ _ J q Hq) as Iq. pose proof (proj2 (d_dom _ _ _ _ _ _ J q Iq) Hq) as NZ.
  destruct (d_lab _ _ _ _ _ _ J q Iq) as [X|X]; [contradiction|]. exists (val 0 raw q - first).
  destruct (nth_error O (val 0 raw q - first)) as [o|] eqn:E; [|apply nth_error_None in E; lia]. exists o. split; [lia|]. split; [reflexivity|lia].
Qed.
Lemma grown_ok : grown v P rawi O.
Proof.
  assert (PKS : forall p, In p O <-> peak v P p).
  { intro p. split.
    - intro H. assert (Hd : In p done). { apply In_nth_error in H. destruct H as [k Ek]. apply (d_pk _ _ _ _ _ _ J k p Ek). }
      split; [apply bright_brt, HD; exact Hd|]. apply in_split in Hd. destruct Hd as (a & c & E).
      destruct (peak_began a p c E H) as (k & Ek & (k' & _ & _ & B & _)). intros q Bq Pq. apply B. apply (earlier a p c q E). auto.
    - intros [Bp H]. apply bright_brt, HD in Bp. apply in_split in Bp. destruct Bp as (a & c & E).
      destruct (d_rule _ _ _ _ _ _ J a p c E) as [(k & Ek & _)|(q & Hq & Wq & _)]; [eapply nth_error_In; exact Ek|].
      exfalso. apply (earlier a p c q E) in Hq. destruct Hq as [B1 B2]. exact (H q B1 B2 Wq). }
  constructor.
  - split; [reflexivity|]. split; [reflexivity|exact wfr].
  - exact PKS.
  - intros i j p q Hij Ei Ej. assert (Hd : In q done) by (apply (d_pk _ _ _ _ _ _ J j q Ej)). apply in_split in Hd. destruct Hd as (a & c & E).
    destruct (peak_began a q c E (nth_error_In _ _ Ej)) as (k & Ek & (k' & _ & V & _ & B)).
    destruct (HO_ok j q Ej) as [_ Vj]. assert (k' = j) by lia. subst k'. apply (earlier a q c p E). apply (B i p Hij Ei).
  - intros k o Ek. apply at_r. apply HO_ok. exact Ek.
  - intro p. rewrite bright_brt, <- HD. split.
    + intro H. destruct (rank_of p H) as (k & o & HK & _ & V). exists k. split; [exact HK|]. apply at_r. split; [apply (d_in _ _ _ _ _ _ J); exact H|exact V].
    + intros (k & HK & E). apply at_r in E. destruct E as [Ip V]. apply (d_dom _ _ _ _ _ _ J p Ip). lia.
  - intros p Ip B. apply at_r. split; [exact Ip|]. destruct (Nat.eq_dec (val 0 raw p) 0) as [X|X]; [exact X|].
    exfalso. apply B, bright_brt, HD. apply (d_dom _ _ _ _ _ _ J p Ip). exact X.
  - intros p k o Ep Ek. apply at_r in Ep. destruct Ep as [Ip V]. assert (Hd : In p done) by (apply (d_dom _ _ _ _ _ _ J p Ip); lia).
    apply in_split in Hd. destruct Hd as (a & c & E). destruct (top_first (length a) a p c k o (le_n _) E V Ek) as [[X _]|X]; [left; exact X|].
    right. apply (earlier a p c o E). exact X.
  - intros p Bp NP. apply bright_brt, HD in Bp. pose proof (d_in _ _ _ _ _ _ J p Bp) as Ip. apply in_split in Bp. destruct Bp as (a & c & E).
    destruct (d_rule _ _ _ _ _ _ J a p c E) as [(k & Ek & _)|(q & Hq & Wq & Vq & HM)].
    { exfalso. apply NP, PKS. eapply nth_error_In. exact Ek. }
    assert (Hqd : In q done) by (rewrite E; apply in_app_iff; left; exact Hq). destruct (rank_of q Hqd) as (k & o & HK & Ek & Vk).
    exists q, k, o. apply (earlier a p c q E) in Hq as Hq'. destruct Hq' as [B1 B2]. split; [exact B1|]. split; [exact B2|]. split; [exact Wq|]. split; [exact Ek|].
    split; [apply at_r; split; [apply (d_in _ _ _ _ _ _ J); exact Hqd|exact Vk]|]. split; [apply at_r; split; [exact Ip|congruence]|].
    intros q' k' o' Bq' Pq' Ek' Er'. assert (Hq'' : In q' a) by (apply (earlier a p c q' E); auto). destruct (HM q' Hq'') as [M1 M2].
    destruct (Z.eq_dec (steps p q') (steps p q)) as [X|X]; [right|left; lia]. split; [congruence|]. specialize (M2 X). unfold pkd in M2.
    apply at_r in Er'. destruct Er' as [_ Er']. rewrite Vk, Er' in M2. replace (first + k - first) with k in M2 by lia. replace (first + k' - first) with k' in M2 by lia.
    rewrite (nth_error_nth _ _ (0, 0) Ek), (nth_error_nth _ _ (0, 0) Ek') in M2. exact M2.
Qed.
Lemma part_Cj j p : part P rawi O j p <-> Cj n m P raw O j p.
Proof.
  unfold part, Cj. split; intros (o & Eo & C); exists o; (split; [exact Eo|]); revert C; apply conn_mono; intros x; [|intros Hx]; unfold Mb in *; apply at_r; assumption.
Qed.
Context (seg1 vis1 : list nat) (ts1 : list tally) (KP : kept n m P im raw O (length O) seg1 vis1 ts1).
Lemma part_list j o : nth_error O j = Some o -> exists l, lists_pixels (part P rawi O j) l.
Proof.
  intro Eo. assert (Hj : j < length O) by (apply nth_error_Some; congruence).
  destruct (nth_error ts1 j) as [t|] eqn:Et; [|apply nth_error_None in Et; rewrite (k_ts _ _ _ _ _ _ _ _ _ _ KP) in Et; lia].
  destruct (k_tally _ _ _ _ _ _ _ _ _ _ KP j o t Eo Et) as (T & (rest & -> & ND & HR) & _). exists (nodup prod_eq_dec_nat (o :: rest)). split; [apply NoDup_nodup|].
  intro p. rewrite nodup_In, part_Cj. unfold Cj. split.
  - intros [<-|H]; exists o; (split; [exact Eo|]); [apply conn_refl; exact (HO_ok j o Eo)|apply HR; exact H].
  - intros (o' & Eo' & C). assert (o' = o) by congruence. subst o'. destruct (prod_eq_dec_nat o p) as [X|X]; [left; exact X|right].
    apply HR. split; [exact C|]. destruct C as [|q r C A M]; [contradiction|]. exists q. auto.
Qed.
Lemma lists_conn j o l : nth_error O j = Some o -> (lists_pixels (part P rawi O j) l <-> lists_pixels (conn (Mb n m (first + j) raw) o) l).
Proof.
  intro Eo. assert (G : forall p, part P rawi O j p <-> conn (Mb n m (first + j) raw) o p).
  { intro p. rewrite part_Cj. unfold Cj. split; [intros (o' & Eo' & C); congruence|intro C; exists o; auto]. }
  unfold lists_pixels. split; intros [A B]; (split; [exact A|]); intro p; rewrite B; [|symmetry]; apply G.
Qed.
Lemma large_big j : large P rawi O j <-> big P ts1 j.
Proof.
  unfold large, big. split.
  - intros (o & l & Eo & LP & H). assert (Hj : j < length O) by (apply nth_error_Some; congruence).
    destruct (nth_error ts1 j) as [t|] eqn:Et; [|apply nth_error_None in Et; rewrite (k_ts _ _ _ _ _ _ _ _ _ _ KP) in Et; lia].
    exists t. split; [reflexivity|]. destruct (k_tally _ _ _ _ _ _ _ _ _ _ KP j o t Eo Et) as (T & RT & (A & _)).
    apply (lists_conn j o l Eo) in LP. pose proof (round_trip_perm _ o T l (HO_ok j o Eo) RT LP) as PM. apply Permutation_length in PM. lia.
  - intros (t & Et & H). destruct (nth_error O j) as [o|] eqn:Eo.
    2: { apply nth_error_None in Eo. assert (j < length ts1) by (apply nth_error_Some; congruence). rewrite (k_ts _ _ _ _ _ _ _ _ _ _ KP) in *. lia. }
    destruct (part_list j o Eo) as (l & LP). exists o, l. split; [reflexivity|]. split; [exact LP|].
    destruct (k_tally _ _ _ _ _ _ _ _ _ _ KP j o t Eo Et) as (T & RT & (A & _)).
    apply (lists_conn j o l Eo) in LP. pose proof (round_trip_perm _ o T l (HO_ok j o Eo) RT LP) as PM. apply Permutation_length in PM. lia.
Qed.
Lemma isbig_big j : isbig P ts1 j = true <-> big P ts1 j.
Proof.
  unfold isbig, big. destruct (nth_error ts1 j) as [t|]; [rewrite Nat.leb_le|].
  - split; [intro H; exists t; auto|]. intros (t' & E & H). injection E as <-. exact H.
  - split; [discriminate|]. intros (t & E & _). discriminate.
Qed.
Lemma final_ok seg vis ts eids r : minv n m P im raw O seg1 ts1 (length O) seg vis ts eids ->
  r = Output (drop_at eids (seq first (length O))) (drop_at eids (map pos O)) (drop_at eids O) (drop_at eids ts) ->
  final v P rawi O (Img n m seg) (filter (isbig P ts1) (seq 0 (length O))) r.
Proof.
  intros M ->. pose proof (m_len _ _ _ _ _ _ _ _ _ _ _ _ _ M) as LS. set (segi := Img n m seg).
  assert (at_s : forall p l, at_ segi p = Some l <-> ing p /\ val 0 seg p = l) by (intros p l; exact (at_some 0 segi p l LS)).
  set (js := filter (isbig P ts1) (seq 0 (length O))).
  assert (JS : forall j, In j js <-> big P ts1 j).
  { intro j. unfold js. rewrite filter_In, isbig_big. split; [tauto|]. intro B. split; [|exact B]. apply in_seq. pose proof (big_lt _ _ _ _ _ _ _ _ _ KP j B). lia. }
  assert (DR : forall A (l : list A), length l = length O -> Forall2 (fun j x => nth_error l j = Some x) js (drop_at eids l)).
  { intros A l L. pose proof (drop_ok eids l) as D. rewrite (m_eids _ _ _ _ _ _ _ _ _ _ _ _ _ M), L, kept_ids in D. rewrite (m_eids _ _ _ _ _ _ _ _ _ _ _ _ _ M). exact D. }
  assert (SS : StronglySorted lt js) by apply seq_sorted. clearbody js.
  assert (CI : forall j p, part P rawi O j p -> ing p).
  { intros j p H. apply part_Cj in H. apply Cj_raw in H. tauto. }
  assert (BS : forall j q, touches P rawi O j q <-> beside n m P raw O j q).
  { intros j q. unfold touches, beside. split; intros (I & p & C & A); (split; [exact I|]; exists p; split; [apply part_Cj; exact C|exact A]). }
  constructor; cbn [o_id o_peak o_origin o_tally].
  - split; [reflexivity|]. split; [reflexivity|exact LS].
  - intros j Hj. destruct (nth_error O j) as [o|] eqn:Eo; [exact (part_list j o Eo)|]. apply nth_error_None in Eo. lia.
  - split; [exact SS|]. intro j. rewrite JS, large_big. reflexivity.
  - pose proof (DR _ (seq first (length O)) (seq_length _ _)) as D.
    assert (HL : forall j, In j js -> j < length O) by (intros j Hj; apply JS in Hj; exact (big_lt _ _ _ _ _ _ _ _ _ KP j Hj)).
    clear JS DR SS. revert HL. induction D as [|j x js' xs E D IH]; intro HL; [reflexivity|]. cbn [map]. f_equal.
    + assert (Hj : j < length O) by (apply HL; left; reflexivity). rewrite (nth_error_nth' _ 0) in E by (rewrite seq_length; exact Hj). rewrite seq_nth in E by exact Hj. congruence.
    + apply IH. intros i Hi. apply HL. right. exact Hi.
  - apply DR. reflexivity.
  - pose proof (DR _ (map pos O) (map_length _ _)) as D1. pose proof (DR _ O eq_refl) as D2. clear JS DR SS. revert D2. generalize (drop_at eids O).
    induction D1 as [|j x js' xs E D IH]; intros ps D2; inversion D2; subst; [reflexivity|]. cbn [map]. f_equal; [|apply IH; assumption].
    rewrite nth_error_map in E. match goal with H : nth_error O j = Some _ |- _ => rewrite H in E end. cbn in E. unfold SegProofs.pos in E. congruence.
  - intros j p Hj C. apply at_s. split; [exact (CI j p C)|]. apply (m_big _ _ _ _ _ _ _ _ _ _ _ _ _ M); [apply JS; exact Hj|apply part_Cj; exact C].
  - intros j o p Hj Eo Ep. apply at_s in Ep. destruct Ep as [Ip V]. apply JS in Hj.
    pose proof (m_conn _ _ _ _ _ _ _ _ _ _ _ _ _ M j o p Hj Eo Ip V) as C. revert C. apply conn_mono. intros x Hx. apply at_s. exact Hx.
  - intros p l Ep. apply at_s in Ep. destruct Ep as [Ip V]. destruct (m_lab _ _ _ _ _ _ _ _ _ _ _ _ _ M p Ip) as [X|(j & Hj & X & [B|B])]; [left; congruence| |lia].
    right. exists j. split; [apply JS; exact B|congruence].
  - intros p l Ep NL. apply at_s in Ep. destruct Ep as [Ip V].
    destruct (k_lab _ _ _ _ _ _ _ _ _ _ KP p Ip) as [X|(j & Hj & X)]; [exfalso; pose proof (m_zero _ _ _ _ _ _ _ _ _ _ _ _ _ M p Ip X); congruence|].
    destruct (nth_error O j) as [o|] eqn:Eo; [|apply nth_error_None in Eo; lia].
    apply (k_seg _ _ _ _ _ _ _ _ _ _ KP j o Hj Eo p Ip) in X. exists j. apply part_Cj. exists o. auto.
  - intros i Hi Ni. assert (SI : small P ts1 i).
    { destruct (big_small n m P F0 im W raw (d_len _ _ _ _ _ _ J) O HO_ok seg1 vis1 ts1 KP i Hi) as [B|S']; [exfalso; apply Ni, JS; exact B|exact S']. }
    destruct (m_small _ _ _ _ _ _ _ _ _ _ _ _ _ M i Hi SI) as [[A B]|(j & o & q & B1 & B2 & B3 & B4 & B5 & B6)].
    + left. split.
      * intros p C. apply at_s. split; [exact (CI i p C)|]. apply A, part_Cj. exact C.
      * intros q j Hq Hj C. apply (B q j); [apply BS; exact Hq|apply JS; exact Hj|apply part_Cj; exact C].
    + right. exists j, o, q. split; [apply JS; exact B1|]. split; [exact B2|].
      split; [intros p C; apply at_s; split; [exact (CI i p C)|apply B3, part_Cj; exact C]|].
      split; [apply BS; exact B4|]. split; [apply at_s; split; [apply B4|exact B5]|].
      intros q' j' o' H1 H2 H3 H4. apply (B6 q' j' o'); [apply BS; exact H1|apply JS; exact H2|exact H3|apply part_Cj; exact H4].
  - pose proof (DR _ ts (m_ts _ _ _ _ _ _ _ _ _ _ _ _ _ M)) as D.
    assert (HB : forall j, In j js -> big P ts1 j) by (intros j Hj; apply JS; exact Hj). clear JS DR SS. revert HB.
    induction D as [|j t js' xs Et D IH]; intro HB; constructor; [|apply IH; intros i Hi; apply HB; right; exact Hi].
    pose proof (HB j (or_introl eq_refl)) as B. pose proof (big_lt _ _ _ _ _ _ _ _ _ KP j B) as Hj.
    destruct (nth_error O j) as [o|] eqn:Eo; [|apply nth_error_None in Eo; lia]. exists o.
    destruct (m_tally _ _ _ _ _ _ _ _ _ _ _ _ _ M j o t B Eo Et) as (AM & T & TT & IT & OT). exists T. split; [reflexivity|].
    assert (IG : forall p, In p T -> ing p) by (intros p Hp; apply IT in Hp; tauto).
    split.
    { assert (EF : forall l g h, (forall p, In p l -> g p = h p) -> @qsum point g l = qsum h l).
      { clear. induction l as [|x l IHl]; intros g h H; [reflexivity|]. rewrite !qsum_cons, (H x) by (left; reflexivity). f_equal. apply IHl. intros p Hp. apply H. right. exact Hp. }
      unfold tallies in *. rewrite (num_nm o) by (apply (HO_ok j o Eo)). fold (lim m P im o).
      assert (EL : filter (fun p => Qle_bool (lim m P im o) (num v p)) T = filter (fun p => Qle_bool (lim m P im o) (nm m im p)) T).
      { apply filter_ext_in. intros p Hp. rewrite num_nm by (apply IG; exact Hp). reflexivity. }
      cbv zeta in *. rewrite EL. set (lb := filter (fun p => Qle_bool (lim m P im o) (nm m im p)) T) in *.
      assert (IL : forall p, In p lb -> num v p = nm m im p) by (intros p Hp; apply num_nm, IG; apply filter_In in Hp; tauto).
      rewrite (EF T (num v) (nm m im)) by (intros p Hp; apply num_nm, IG; exact Hp). rewrite (EF lb (num v) (nm m im)) by exact IL.
      rewrite (EF lb (fun p => inject_Z (Z.of_nat (fst p)) * num v p)%Q (fun p => inject_Z (Z.of_nat (fst p)) * nm m im p)%Q) by (intros p Hp; rewrite IL by exact Hp; reflexivity).
      rewrite (EF lb (fun p => inject_Z (Z.of_nat (snd p)) * num v p)%Q (fun p => inject_Z (Z.of_nat (snd p)) * nm m im p)%Q) by (intros p Hp; rewrite IL by exact Hp; reflexivity).
      exact TT. }
    split; [exact AM|]. split; [intro p; rewrite IT, at_s; reflexivity|]. intros i oi li p Ei LP Hp Ep. apply at_s in Ep. destruct Ep as [Ip V]. rewrite !times_occ.
    assert (C : Cj n m P raw O i p) by (apply part_Cj, LP; exact Hp).
    destruct (nth_error ts1 i) as [ti|] eqn:Eti.
    2: { apply nth_error_None in Eti. rewrite (k_ts _ _ _ _ _ _ _ _ _ _ KP) in Eti. apply nth_error_None in Eti. congruence. }
    destruct (k_tally _ _ _ _ _ _ _ _ _ _ KP i oi ti Ei Eti) as (Ti & RT & _). rewrite (OT i oi Ti p Ei C V RT).
    apply (lists_conn i oi li Ei) in LP. apply (Permutation_count_occ prod_eq_dec_nat). exact (round_trip_perm _ oi Ti li (HO_ok i oi Ei) RT LP).
Qed.
End Detected.

Theorem deblend_ok : exists seg js r raw peaks, segment_deblend v P [] = Ok (seg, r) /\ grown v P raw peaks /\ final v P raw peaks seg js r.
Proof.
  destruct (detection n m im W P F0 [] N0) as (done & b & O & ipos & H). cbv zeta in H. destruct H as (EK & ED & J & (_ & S1 & S2 & S3) & HD & HP).
  cbn [app] in S1. pose proof (HO_ok done (b_seg b) O J) as HO. pose proof (HF_ok done (b_seg b) O J HD) as HF. pose proof (d_len _ _ _ _ _ _ J) as LR.
  destruct (islands_ok n m P F0 im W (b_seg b) LR O HO HF (b_ids b) S1) as (seg1 & vis1 & ts1 & EI & KP).
  unfold segment_deblend, check. cbv zeta. destruct (Nat.ltb_spec 0 first); [|lia]. cbn [obind]. destruct (Nat.eqb_spec (n * m) 0) as [Z0|Z0]; [lia|].
  rewrite EK. cbn [obind]. rewrite ED. cbn [obind]. rewrite S2, EI. cbn [obind].
  pose proof (grown_ok done (b_seg b) O J HD HP) as G.
  destruct (existsb (fun t => t_area t <? p_min P) ts1) eqn:EX.
  - destruct (merges_ok n m P F0 im W (b_seg b) LR O HO HF seg1 vis1 ts1 KP (b_ids b) S1) as (seg & vis & ts & eids & EM & M).
    rewrite EM. cbn [obind]. do 5 eexists. split; [reflexivity|]. split; [exact G|].
    eapply final_ok; try eassumption. rewrite S1, S3. reflexivity.
  - do 5 eexists. split; [reflexivity|]. split; [exact G|].
    assert (ALL : forall j, j < length O -> isbig P ts1 j = true).
    { intros j Hj. unfold isbig. destruct (nth_error ts1 j) as [t|] eqn:Et; [|apply nth_error_None in Et; rewrite (k_ts _ _ _ _ _ _ _ _ _ _ KP) in Et; lia].
      destruct (Nat.leb_spec (p_min P) (t_area t)) as [X|X]; [reflexivity|]. apply nth_error_In in Et. exfalso. apply Bool.not_true_iff_false in EX. apply EX.
      apply existsb_exists. exists t. split; [exact Et|]. apply Nat.ltb_lt. exact X. }
    pose proof (minv_start n m P F0 im W (b_seg b) LR O HO HF seg1 vis1 ts1 KP (length O) ALL (le_n _)) as M.
    eapply final_ok; try eassumption. rewrite !drop_nil, S1, S3. reflexivity.
Qed.

(* an output that has been used already *)
Lemma deblend_reuse old : old <> [] -> ~ In 0 old -> segment_deblend v P old = CheckFail.
Proof.
  intros NO NZ. destruct (detection n m im W P F0 old N0) as (done & b & O & ipos & H). cbv zeta in H. destruct H as (EK & ED & J & (_ & S1 & S2 & S3) & HD & HP).
  pose proof (HO_ok done (b_seg b) O J) as HO. pose proof (HF_ok done (b_seg b) O J HD) as HF. pose proof (d_len _ _ _ _ _ _ J) as LR.
  unfold segment_deblend. cbv zeta. unfold check at 1. destruct (Nat.ltb_spec 0 first); [|lia]. cbn [obind]. destruct (Nat.eqb_spec (n * m) 0) as [Z0|Z0]; [lia|].
  rewrite EK. cbn [obind]. rewrite ED. cbn [obind]. rewrite S2.
  assert (LI : length (b_ids b) = length old + length O) by (rewrite S1, app_length, seq_length; reflexivity).
  assert (NI : ~ In 0 (b_ids b)). { rewrite S1, in_app_iff, in_seq. intros [X|X]; [contradiction|lia]. }
  assert (LO : 0 < length old) by (destruct old; [contradiction|cbn; lia]).
  assert (G : forall r k seg vis ts, k + r = length O -> length seg = n * m -> length vis = n * m ->
    ofold (island n m P im (b_seg b) (b_ids b) (map pos O)) (seq k (r + length old)) (seg, vis, ts) = CheckFail).
  { induction r as [|r IH]; intros k seg vis ts EQ LS LV.
    - cbn [plus]. destruct old as [|x old]; [contradiction|]. cbn [length seq ofold]. unfold island.
      destruct (nth_error (b_ids b) k) as [cur|] eqn:Ec; [|apply nth_error_None in Ec; cbn [length] in LI; lia].
      rewrite (proj2 (oget_Ok _ _ k cur) Ec). cbn [obind]. rewrite map_length. destruct (Nat.ltb_spec k (length O)); [lia|]. reflexivity.
    - cbn [plus seq ofold]. unfold island at 1. destruct (nth_error (b_ids b) k) as [cur|] eqn:Ec; [|apply nth_error_None in Ec; lia].
      assert (C0 : cur <> 0) by (intros ->; apply NI; eapply nth_error_In; exact Ec).
      rewrite (proj2 (oget_Ok _ _ k cur) Ec). cbn [obind]. rewrite map_length. unfold check. destruct (Nat.ltb_spec k (length O)); [|lia]. cbn [obind].
      destruct (nth_error O k) as [o|] eqn:Eo; [|apply nth_error_None in Eo; lia]. destruct (HO k o Eo) as [Io Vo].
      assert (EG : oget (map pos O) k = Ok (pos o)) by (unfold oget; rewrite nth_error_map, Eo; reflexivity). rewrite EG. cbn [obind].
      rewrite coords_ok by exact Io. cbn [obind]. rewrite (value_ok n m im W (b_seg b) HF o Io) by lia. cbn [obind].
      destruct (wloop_total n m cur (b_seg b) LR (gather m cur im (p_flim P * nm m im o)%Q) (gstep m im (b_seg b) cur (p_flim P * nm m im o)%Q) (fun a => length (fst a) = n * m))
        with (fuel := n * m + 2) (a := (seg, Tally 0 0 0 0 0)) (vis := vis) (pts := [o]) as ([seg' t'] & vis' & E & LS' & LV').
      { intros a p La Ip. apply (gather_ok n m im W (b_seg b) HF); assumption. }
      { exact LS. }
      { exact LV. }
      { intros p [<-|[]]. exact Io. }
      { pose proof (unv_le cur vis). lia. }
      rewrite E. cbn [obind]. apply (IH (S k)); [lia|exact LS'|exact LV']. }
  replace (length (b_ids b)) with (length O + length old) by lia. rewrite (G (length O) 0); [reflexivity|lia|apply repeat_length|apply repeat_length].
Qed.
End Whole.
