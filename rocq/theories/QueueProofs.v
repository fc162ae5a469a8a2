From Verif Require Import Base QueueModel QueueSpec.

Section Proofs.
Context {T : Type}.
Implicit Type s : state T.

Definition ch (d : nat) (R : list nat) (Q : list (nat * T)) : list nat := R ++ d :: map fst Q.
Definition moved (c : @cpc T) : Prop := match c with CPop4 _ | CPop5 _ _ => True | _ => False end.

Record good s (R : list nat) (Q : list (nat * T)) (m : nat) (E X : list nat) : Prop := {
  g_acc : accepted (log s) (map snd Q) m;
  g_nodup : NoDup (ch (dummy s) R Q ++ X);
  g_first : nth_error (ch (dummy s) R Q) 0 = Some (first s);
  g_last : nth_error (ch (dummy s) R Q) (length R + length Q) = Some (last s);
  g_link : forall k a, nth_error (ch (dummy s) R Q) k = Some a ->
           exists d, hp s a = Some (Node d (nth_error (ch (dummy s) R Q ++ E) (k + 1)));
  g_dom : forall a, hp s a <> None -> In a (ch (dummy s) R Q ++ X);
  g_data : forall k a v, nth_error Q k = Some (a, v) ->
           (moved (cons s) /\ k = 0) \/ exists nx, hp s a = Some (Node (Some v) nx) }.

Definition fresh s (X : list nat) : Prop :=
  exists x v pj, X = [x] /\ pjobs s = v :: pj /\ hp s x = Some (Node (Some v) None).
Definition pinv s (R : list nat) (E X : list nat) : Prop :=
  match prod s with
  | PIdle | PTest => E = [] /\ X = []
  | PLink l x => E = [] /\ X = [x] /\ l = last s /\ fresh s X
  | PNext => E = X /\ fresh s X
  | PPub x => E = X /\ X = [x] /\ fresh s X
  | PRead t => E = [] /\ X = [] /\ t = first s /\ R <> []
  | PDel t => E = [] /\ X = [t] /\ hp s t <> None
  end.
Definition cinv s (Q : list (nat * T)) (m : nat) : Prop :=
  match cons s with
  | CIdle => True
  | CPop1 d | CSize1 d | CEmpty d => d = dummy s
  | CPop2 d => d = dummy s /\ Q <> []
  | CPop3 n => exists v Q', Q = (n, v) :: Q'
  | CPop4 o => exists n v Q', Q = (n, v) :: Q' /\ o = Some v
  | CPop5 o n => exists v Q', Q = (n, v) :: Q' /\ o = Some v
  | CSize2 t e n => n <= m /\ nth_error (dummy s :: map fst Q) n = Some t /\ nth_error (dummy s :: map fst Q) m = Some e
  end.
Definition invs s R Q m E X : Prop := good s R Q m E X /\ pinv s R E X /\ cinv s Q m.
Definition inv s : Prop := exists R Q m E X, invs s R Q m E X.

(* the work left *)
Definition pweight (p : ppc) : nat :=
  match p with PIdle => 10 | PLink _ _ => 9 | PNext => 8 | PPub _ => 7 | PTest => 11 | PRead _ => 10 | PDel _ => 12 end.
Definition cweight (b m : nat) (c : @cpc T) : nat :=
  match c with
  | CIdle => 0 | CPop1 _ => 5 | CPop2 _ => 4 | CPop3 _ => 3 | CPop4 _ => 2 | CPop5 _ _ => 1
  | CSize1 _ => b + 2 | CSize2 _ _ n => 1 + (m - n) | CEmpty _ => 1
  end.
Definition bb s (Q : list (nat * T)) : nat := length (pjobs s) + length Q.
Definition meas s (R : list nat) (Q : list (nat * T)) (m : nat) : nat :=
  8 * length (pjobs s) + 3 * (length R + length Q) + pweight (prod s)
  + length (cjobs s) * (bb s Q + 6) + cweight (bb s Q) m (cons s).
Ltac msr := unfold meas, bb; cbn [pjobs cjobs prod cons pweight cweight length]; try lia; try nia.

Lemma hset_same : forall (h : heap T) a n, hset h a n a = n.
Proof. intros. unfold hset. now rewrite Nat.eqb_refl. Qed.
Lemma hset_other : forall (h : heap T) a n b, b <> a -> hset h a n b = h b.
Proof. intros. unfold hset. destruct (Nat.eqb_spec b a); [contradiction|reflexivity]. Qed.

Lemma ch_length : forall d R (Q : list (nat * T)), length (ch d R Q) = length R + S (length Q).
Proof. intros. unfold ch. rewrite app_length. cbn. now rewrite map_length. Qed.
Lemma ch_dummy : forall d R (Q : list (nat * T)), nth_error (ch d R Q) (length R) = Some d.
Proof. intros. unfold ch. rewrite nth_error_app2, Nat.sub_diag by lia. reflexivity. Qed.
Lemma ch_queue : forall d R (Q : list (nat * T)) k, nth_error (ch d R Q) (length R + k) = nth_error (d :: map fst Q) k.
Proof. intros. unfold ch. rewrite nth_error_app2 by lia. f_equal. lia. Qed.
Lemma nodup_nth : forall (l : list nat) X i j a, NoDup (l ++ X) -> nth_error l i = Some a -> nth_error l j = Some a -> i = j.
Proof.
  intros l X i j a N I J. eapply (NoDup_nth_error (l ++ X)); eauto.
  - apply nth_error_Some. rewrite nth_error_app1; [congruence|]. apply nth_error_Some. congruence.
  - rewrite !nth_error_app1 by (apply nth_error_Some; congruence). congruence.
Qed.
Lemma chain_not_extra : forall (l X : list nat) a, NoDup (l ++ X) -> In a l -> In a X -> False.
Proof.
  induction l; intros X b N I J; [destruct I|]. cbn in N. inversion N; subst. destruct I as [->|I]; [|eauto].
  apply H1, in_app_iff. now right.
Qed.

Lemma init_inv : forall a0 ps cs, invs (init a0 ps cs) [] [] 0 [] [].
Proof.
  intros. split; [|split; cbn; auto]. split; cbn.
  - constructor.
  - repeat constructor. intros [].
  - reflexivity.
  - reflexivity.
  - intros [|[|k]] a H; try discriminate. injection H as <-. exists None. apply hset_same.
  - intros a H. left. destruct (Nat.eq_dec a a0); auto. rewrite hset_other in H by auto. contradiction.
  - intros k a v H. destruct k; discriminate.
Qed.

(* --- the producer ----------------------------------------------------------------- *)
Lemma pstep_inv : forall a s R Q m E X, invs s R Q m E X -> exists r, pstep a s = Ok r /\ forall s', r = Some s' ->
  exists R' Q' m' E' X', invs s' R' Q' m' E' X' /\ meas s' R' Q' m' < meas s R Q m.
Proof.
  intros a [h f d l p c pj cj lg] R Q m E X (G & PI & CI). unfold pinv in PI. cbn [prod] in PI. cbn [pstep].
  pose proof (g_nodup _ _ _ _ _ _ G) as ND. pose proof (g_link _ _ _ _ _ _ G) as LK. pose proof (g_dom _ _ _ _ _ _ G) as DM.
  pose proof (g_data _ _ _ _ _ _ G) as DT. pose proof (g_first _ _ _ _ _ _ G) as FS. pose proof (g_last _ _ _ _ _ _ G) as LS.
  pose proof (g_acc _ _ _ _ _ _ G) as AC. cbn [dummy hp first last cons log] in *.
  destruct p as [|l' x| |x| |t|t].
  - (* alloc *)
    destruct PI as (-> & ->). destruct pj as [|v pj]; [exists None; split; [reflexivity|discriminate]|].
    destruct (h a) eqn:Ha; [exists None; split; [reflexivity|discriminate]|].
    eexists. split; [reflexivity|]. intros s' Es. injection Es as <-.
    assert (NI : ~ In a (ch d R Q)).
    { intros I. apply In_nth_error in I. destruct I as (k & I). destruct (LK k a I) as (d0 & H). congruence. }
    exists R, Q, m, [], [a]. split; [split; [|split]|msr].
    + split; cbn [dummy hp first last cons log]; auto.
      * rewrite app_nil_r in ND. apply NoDup_app_intro; auto; [repeat constructor; intros []|]. intros x I [<-|[]]. contradiction.
      * intros k b H. destruct (LK k b H) as (d0 & H'). exists d0. rewrite hset_other; auto. intros ->. congruence.
      * intros b H. destruct (Nat.eq_dec b a) as [->|Nb]; [apply in_app_iff; right; now left|].
        rewrite hset_other in H by auto. apply in_app_iff. left. apply DM in H. rewrite app_nil_r in H. exact H.
      * intros k b w H. destruct (DT k b w H) as [M|(nx & H')]; [now left|right]. exists nx. rewrite hset_other; auto. intros ->. congruence.
    + cbn. repeat split; auto. exists a, v, pj. cbn. repeat split; auto. apply hset_same.
    + exact CI.
  - (* link *)
    destruct PI as (-> & -> & -> & x0 & v & pj' & E0 & Ep & Hx). injection E0 as <-. cbn [pjobs hp last] in *. subst pj.
    destruct (LK _ _ LS) as (d0 & Hl). unfold hget. rewrite Hl. cbn [obind].
    eexists. split; [reflexivity|]. intros s' Es. injection Es as <-.
    assert (Nx : forall b, In b (ch d R Q) -> b <> x).
    { intros b I ->. eapply chain_not_extra; [exact ND|exact I|now left]. }
    assert (Il : In l (ch d R Q)) by (eapply nth_error_In; eauto).
    exists R, Q, m, [x], [x]. split; [split; [|split]|msr].
    + split; cbn [dummy hp first last cons log]; auto.
      * intros k b H. destruct (Nat.eq_dec b l) as [->|Nb].
        -- assert (k = length R + length Q) by (eapply nodup_nth; eauto). subst k. rewrite hset_same. exists d0. cbn [data]. do 2 f_equal.
           rewrite nth_error_app2 by (rewrite ch_length; lia). rewrite ch_length.
           replace (length R + length Q + 1 - (length R + S (length Q))) with 0 by lia. reflexivity.
        -- rewrite hset_other by auto. destruct (LK k b H) as (d1 & H'). exists d1. rewrite H'. do 2 f_equal. rewrite app_nil_r.
           rewrite nth_error_app1; auto. assert (k <> length R + length Q) by (intros ->; congruence).
           assert (k < length (ch d R Q)) by (apply nth_error_Some; congruence). rewrite ch_length in *. lia.
      * intros b H. apply DM. destruct (Nat.eq_dec b l) as [->|Nb]; [congruence|]. rewrite hset_other in H; auto.
      * intros k b w H. destruct (DT k b w H) as [M|(nx & H')]; [now left|right].
        destruct (Nat.eq_dec b l) as [->|Nb]; [|exists nx; now rewrite hset_other].
        rewrite Hl in H'. injection H' as -> _. rewrite hset_same. eexists. reflexivity.
    + cbn. split; auto. exists x, v, pj'. cbn. repeat split; auto. rewrite hset_other; auto. apply not_eq_sym. auto.
    + exact CI.
  - (* read next *)
    destruct PI as (-> & x & v & pj' & -> & Ep & Hx). cbn [pjobs hp] in *. subst pj.
    destruct (LK _ _ LS) as (d0 & Hl). unfold hget. rewrite Hl. cbn [obind next].
    rewrite nth_error_app2 by (rewrite ch_length; lia). rewrite ch_length.
    replace (length R + length Q + 1 - (length R + S (length Q))) with 0 by lia. cbn [nth_error deref obind].
    eexists. split; [reflexivity|]. intros s' Es. injection Es as <-. exists R, Q, m, [x], [x]. split; [split; [|split]|msr].
    + split; cbn [dummy hp first last cons log]; auto.
    + cbn. repeat split; auto. exists x, v, pj'. cbn. auto.
    + exact CI.
  - (* publish *)
    destruct PI as (-> & -> & x0 & v & pj' & E0 & Ep & Hx). injection E0 as <-. cbn [pjobs hp] in *. subst pj.
    eexists. split; [reflexivity|]. intros s' Es. injection Es as <-.
    assert (CE : ch d R (Q ++ [(x, v)]) = ch d R Q ++ [x]).
    { unfold ch. rewrite map_app. cbn. now rewrite <- app_assoc. }
    exists R, (Q ++ [(x, v)]), m, [], []. split; [split; [|split]|].
    4:{ unfold meas, bb. cbn [pjobs cjobs prod cons pweight length]. rewrite app_length. cbn [length].
        replace (length pj' + (length Q + 1)) with (S (length pj') + length Q) by lia. lia. }
    + split; cbn [dummy hp first last cons log]; rewrite ?CE, ?app_nil_r; auto.
      * rewrite map_app. cbn. now constructor.
      * rewrite nth_error_app1; auto. rewrite ch_length. lia.
      * rewrite nth_error_app2 by (rewrite ch_length, app_length; cbn; lia). rewrite ch_length, app_length. cbn.
        replace (length R + (length Q + 1) - (length R + S (length Q))) with 0 by lia. reflexivity.
      * intros k b H. assert (L : k < length (ch d R Q) \/ k >= length (ch d R Q)) by lia. destruct L as [L|L].
        -- rewrite nth_error_app1 in H by auto. auto.
        -- rewrite nth_error_app2 in H by auto. assert (k < length (ch d R Q ++ [x])).
           { apply nth_error_Some. rewrite nth_error_app2 by auto. congruence. }
           rewrite app_length in *. cbn in *. replace (k - length (ch d R Q)) with 0 in H by lia. injection H as <-.
           exists (Some v). rewrite Hx. do 2 f_equal. symmetry. apply nth_error_None. rewrite app_length. cbn. lia.
      * intros k b w H. assert (L : k < length Q \/ k >= length Q) by lia. destruct L as [L|L].
        -- rewrite nth_error_app1 in H by auto. eauto.
        -- rewrite nth_error_app2 in H by auto. destruct (k - length Q) as [|[|?]]; try discriminate.
           injection H as <- <-. right. exists None. exact Hx.
    + cbn. auto.
    + unfold cinv in *. cbn [cons dummy] in *. destruct c; auto.
      * destruct CI as (-> & N). split; auto. destruct Q; discriminate.
      * destruct CI as (w & Q' & ->). exists w, (Q' ++ [(x, v)]). reflexivity.
      * destruct CI as (n & w & Q' & -> & ->). exists n, w, (Q' ++ [(x, v)]). auto.
      * destruct CI as (w & Q' & -> & ->). exists w, (Q' ++ [(x, v)]). auto.
      * destruct CI as (L & A & B). split; auto. rewrite map_app. change (d :: map fst Q ++ map fst [(x, v)]) with ((d :: map fst Q) ++ [x]).
        rewrite !nth_error_app1 by (apply nth_error_Some; congruence). auto.
  - (* test *)
    destruct PI as (-> & ->). eexists. split; [reflexivity|]. intros s' Es. injection Es as <-.
    exists R, Q, m, [], []. split; [split; [|split]|destruct (f =? d); msr].
    + split; cbn [dummy hp first last cons log]; auto.
    + unfold pinv. cbn [prod first]. destruct (Nat.eqb_spec f d) as [->|Nf]; auto. repeat split; auto.
      intros ->. cbn in FS. injection FS as ->. contradiction.
    + exact CI.
  - (* read first->next *)
    destruct PI as (-> & -> & -> & NR). cbn [first] in *. destruct R as [|r R]; [contradiction|].
    cbn in FS. injection FS as ->. destruct (LK 0 f eq_refl) as (d0 & Hf). unfold hget. rewrite Hf. cbn [obind next].
    rewrite app_nil_r in Hf. rewrite app_nil_r.
    assert (NX : nth_error (ch d (f :: R) Q) (0 + 1) = nth_error (ch d R Q) 0) by reflexivity.
    destruct (nth_error (ch d R Q) 0) as [f2|] eqn:F2; [|apply nth_error_None in F2; rewrite ch_length in F2; lia].
    rewrite NX. cbn [deref obind]. eexists. split; [reflexivity|]. intros s' Es. injection Es as <-.
    rewrite app_nil_r in ND. assert (ND' : NoDup (f :: ch d R Q)) by exact ND. inversion ND' as [|? ? NIf NDR]; subst.
    exists R, Q, m, [], [f]. split; [split; [|split]|msr].
    + split; cbn [dummy hp first last cons log]; rewrite ?app_nil_r in *; auto.
      * apply NoDup_app_intro; auto; [repeat constructor; intros []|]. intros b I [<-|[]]. contradiction.
      * intros k b H. destruct (LK (S k) b H) as (d1 & H'). exists d1. rewrite ?app_nil_r in H'. exact H'.
      * intros b H. apply DM in H. destruct H as [<-|H]; apply in_app_iff; [right; now left|now left].
    + cbn. repeat split; auto. congruence.
    + exact CI.
  - (* delete *)
    destruct PI as (-> & -> & Ht). cbn [hp] in Ht. unfold hget. destruct (h t) eqn:E0; [|contradiction]. cbn [obind].
    eexists. split; [reflexivity|]. intros s' Es. injection Es as <-.
    assert (Nt : forall b, In b (ch d R Q) -> b <> t).
    { intros b I ->. eapply chain_not_extra; [exact ND|exact I|now left]. }
    exists R, Q, m, [], []. split; [split; [|split]|msr].
    + split; cbn [dummy hp first last cons log]; rewrite ?app_nil_r in *; auto.
      * now apply NoDup_remove_1 in ND; rewrite app_nil_r in ND.
      * intros k b H. destruct (LK k b H) as (d1 & H'). exists d1. rewrite hset_other; [exact H'|]. apply Nt. eapply nth_error_In; eauto.
      * intros b H. destruct (Nat.eq_dec b t) as [->|Nb]; [rewrite hset_same in H; contradiction|]. rewrite hset_other in H by auto.
        apply DM in H. apply in_app_iff in H. destruct H as [H|[<-|[]]]; [auto|contradiction].
      * intros k b w H. destruct (DT k b w H) as [M|(nx & H')]; [now left|right]. exists nx. rewrite hset_other; auto. apply Nt.
        unfold ch. apply in_app_iff. right. right. apply nth_error_In in H. apply (in_map fst) in H. exact H.
    + cbn. auto.
    + exact CI.
Qed.

(* --- the consumer ----------------------------------------------------------------- *)
Lemma cstep_inv : forall s R Q m E X, invs s R Q m E X -> exists r, cstep s = Ok r /\ forall s', r = Some s' ->
  exists R' Q' m' E' X', invs s' R' Q' m' E' X' /\ meas s' R' Q' m' < meas s R Q m.
Proof.
  intros [h f d l p c pj cj lg] R Q m E X (G & PI & CI). unfold cinv in CI. cbn [cons] in CI. cbn [cstep].
  pose proof (g_nodup _ _ _ _ _ _ G) as ND. pose proof (g_link _ _ _ _ _ _ G) as LK. pose proof (g_dom _ _ _ _ _ _ G) as DM.
  pose proof (g_data _ _ _ _ _ _ G) as DT. pose proof (g_first _ _ _ _ _ _ G) as FS. pose proof (g_last _ _ _ _ _ _ G) as LS.
  pose proof (g_acc _ _ _ _ _ _ G) as AC. cbn [dummy hp first last cons log] in *.
  assert (EMP : d = l <-> Q = []).
  { split.
    - intros ->. assert (length R = length R + length Q) by (eapply nodup_nth; [exact ND|apply ch_dummy|exact LS]).
      destruct Q; auto. cbn in *. lia.
    - intros ->. rewrite Nat.add_0_r, ch_dummy in LS. now injection LS. }
  assert (NXT : forall n v Q', Q = (n, v) :: Q' -> exists d0, h d = Some (Node d0 (Some n))).
  { intros n v Q' ->. destruct (LK _ _ (ch_dummy d R ((n, v) :: Q'))) as (d0 & Hd). exists d0. rewrite Hd. do 2 f_equal.
    rewrite nth_error_app1 by (rewrite ch_length; cbn; lia). rewrite ch_queue. reflexivity. }
  destruct c as [|d'|d'|x|v|v x|t|t e n|d'].
  - destruct cj as [|[] cj]; [exists None; split; [reflexivity|discriminate]| | |];
      (eexists; split; [reflexivity|]; intros s' Es; injection Es as <-; exists R, Q, m, E, X; split; [split; [|split; [exact PI|reflexivity]]|msr];
       split; cbn [dummy hp first last cons log]; auto).
  - subst d'. eexists. split; [reflexivity|]. intros s' Es. injection Es as <-. exists R, Q, m, E, X.
    destruct (Nat.eqb_spec d l) as [El|Nl].
    + assert (EQ : Q = []) by now apply EMP. split; [split; [|split; [exact PI|exact Logic.I]]|msr].
      split; cbn [dummy hp first last cons log]; auto. rewrite EQ in *. cbn in *. now constructor.
    + split; [split; [|split; [exact PI|]]|msr].
      * split; cbn [dummy hp first last cons log]; auto.
      * cbn. split; auto. intros ->. apply Nl. now apply EMP.
  - destruct CI as (-> & NQ). destruct Q as [|(n, v) Q]; [contradiction|]. destruct (NXT n v Q eq_refl) as (d0 & Hd).
    unfold hget. cbn [dummy]. rewrite Hd. cbn [obind next deref]. eexists. split; [reflexivity|]. intros s' Es. injection Es as <-.
    exists R, ((n, v) :: Q), m, E, X. split; [split; [|split; [exact PI|exists v, Q; reflexivity]]|msr].
    split; cbn [dummy hp first last cons log]; auto.
  - destruct CI as (v & Q' & ->). destruct (DT 0 x v eq_refl) as [([] & _)|(nx & Hx)].
    unfold hget. rewrite Hx. cbn [obind next data]. eexists. split; [reflexivity|]. intros s' Es. injection Es as <-.
    assert (Ix : nth_error (ch d R ((x, v) :: Q')) (length R + 1) = Some x) by (rewrite ch_queue; reflexivity).
    exists R, ((x, v) :: Q'), m, E, X. split; [split; [|split]|msr].
    + split; cbn [dummy hp first last cons log]; auto.
      * intros k b H. destruct (LK k b H) as (d1 & H'). destruct (Nat.eq_dec b x) as [->|Nb].
        -- rewrite hset_same. exists None. rewrite Hx in H'. injection H' as _ ->. reflexivity.
        -- exists d1. now rewrite hset_other.
      * intros b H. apply DM. destruct (Nat.eq_dec b x) as [->|Nb]; [congruence|]. rewrite hset_other in H; auto.
      * intros k b w H. destruct k as [|k]; [left; split; [exact Logic.I|reflexivity]|]. right.
        destruct (DT _ _ _ H) as [(_ & ?)|(nx' & H')]; [discriminate|]. exists nx'. rewrite hset_other; auto. intros ->.
        assert (Y : nth_error (ch d R ((x, v) :: Q')) (length R + S (S k)) = Some x).
        { rewrite ch_queue. cbn [map nth_error] in *. rewrite nth_error_map, H. reflexivity. }
        assert (length R + S (S k) = length R + 1) by (eapply nodup_nth; eauto). lia.
    + unfold pinv in *. cbn [prod last first hp pjobs] in *. unfold fresh in *. cbn [pjobs hp] in *.
      assert (FR : forall X, (exists x0 v0 pj0, X = [x0] /\ pj = v0 :: pj0 /\ h x0 = Some (Node (Some v0) None)) ->
                 NoDup (ch d R ((x, v) :: Q') ++ X) ->
                 exists x0 v0 pj0, X = [x0] /\ pj = v0 :: pj0 /\ hset h x (Some (Node None nx)) x0 = Some (Node (Some v0) None)).
      { intros Y (x0 & v0 & pj0 & -> & -> & H0) N0. exists x0, v0, pj0. repeat split; auto. rewrite hset_other; auto. intros ->.
        eapply chain_not_extra; [exact N0| |now left]. eapply nth_error_In; eauto. }
      destruct p; [exact PI| | | |exact PI|exact PI|].
      * destruct PI as (A & B & C0 & D). split; [|split; [|split]]; auto.
      * destruct PI as (A & B). split; auto.
      * destruct PI as (A & B & C0). split; [|split]; auto.
      * destruct PI as (A & B & C0). split; [|split]; auto. destruct (Nat.eq_dec t x) as [->|Nt]; [rewrite hset_same; discriminate|]. now rewrite hset_other.
    + exists x, v, Q'. auto.
  - destruct CI as (n & w & Q' & -> & ->). destruct (NXT n w Q' eq_refl) as (d0 & Hd).
    unfold hget. rewrite Hd. cbn [obind next deref]. eexists. split; [reflexivity|]. intros s' Es. injection Es as <-.
    exists R, ((n, w) :: Q'), m, E, X. split; [split; [|split; [exact PI|exists w, Q'; auto]]|msr].
    split; cbn [dummy hp first last cons log]; auto.
  - destruct CI as (w & Q' & -> & ->). eexists. split; [reflexivity|]. intros s' Es. injection Es as <-.
    assert (CE : ch x (R ++ [d]) Q' = ch d R ((x, w) :: Q')) by (unfold ch; rewrite <- app_assoc; reflexivity).
    exists (R ++ [d]), Q', m, E, X. split; [split; [|split]|].
    4:{ unfold meas, bb. cbn [pjobs cjobs prod cons pweight cweight length]. rewrite app_length. cbn [length].
        pose proof (Nat.mul_le_mono_l (length pj + length Q' + 6) (length pj + S (length Q') + 6) (length cj)). lia. }
    + split; cbn [dummy hp first last cons log]; rewrite ?CE; auto.
      * cbn in AC. now constructor.
      * rewrite app_length. cbn [length] in *. replace (length R + 1 + length Q') with (length R + S (length Q')) by lia. auto.
      * intros k b u H. right. destruct (DT (S k) b u H) as [(_ & ?)|?]; [discriminate|auto].
    + unfold pinv in *. cbn [prod last first hp pjobs] in *. destruct p; auto.
      destruct PI as (A & B & C0 & _). repeat split; auto. destruct R; discriminate.
    + exact Logic.I.
  - subst t. eexists. split; [reflexivity|]. intros s' Es. injection Es as <-. cbn [dummy].
    exists R, Q, (length Q), E, X. split; [split; [|split; [exact PI|]]|msr].
    + split; cbn [dummy hp first last cons log]; auto. rewrite <- (map_length snd Q). econstructor. exact AC.
    + cbn. repeat split; auto; [lia|]. rewrite ch_queue in LS. exact LS.
  - destruct CI as (L & A & B). cbn [dummy] in *. destruct (Nat.eqb_spec t e) as [->|Nt].
    + eexists. split; [reflexivity|]. intros s' Es. injection Es as <-. exists R, Q, m, E, X. split; [split; [|split; [exact PI|exact Logic.I]]|msr].
      assert (n = m).
      { assert (length R + n = length R + m); [|lia]. eapply nodup_nth; [exact ND| |]; rewrite ch_queue; eauto. }
      subst n. split; cbn [dummy hp first last cons log]; auto. constructor; auto. rewrite map_length.
      assert (m < length (d :: map fst Q)) by (apply nth_error_Some; congruence). cbn in *. rewrite map_length in *. lia.
    + assert (n < m).
      { destruct (Nat.eq_dec n m) as [->|]; [congruence|lia]. }
      assert (ML : m < length (d :: map fst Q)) by (apply nth_error_Some; congruence).
      assert (A' : nth_error (ch d R Q) (length R + n) = Some t) by now rewrite ch_queue.
      destruct (LK _ _ A') as (d0 & Ht). unfold hget. rewrite Ht. cbn [obind next].
      cbn [length] in ML. rewrite map_length in ML.
      rewrite nth_error_app1 by (rewrite ch_length; lia). rewrite <- Nat.add_assoc, ch_queue.
      destruct (nth_error (d :: map fst Q) (n + 1)) as [t2|] eqn:T2.
      2:{ apply nth_error_None in T2. cbn [length] in T2. rewrite map_length in T2. lia. }
      cbn [deref obind]. eexists. split; [reflexivity|]. intros s' Es. injection Es as <-.
      exists R, Q, m, E, X. split; [split; [|split; [exact PI|]]|msr].
      * split; cbn [dummy hp first last cons log]; auto.
      * cbn. repeat split; auto. lia.
  - subst d'. eexists. split; [reflexivity|]. intros s' Es. injection Es as <-. exists R, Q, m, E, X. split; [split; [|split; [exact PI|exact Logic.I]]|msr].
    split; cbn [dummy hp first last cons log]; auto. constructor; auto. rewrite Nat.eqb_eq, EMP. destruct Q; split; auto; discriminate.
Qed.
End Proofs.
