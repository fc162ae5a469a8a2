From Verif Require Import Base QueueModel QueueSpec QueueProofs.

Section Proofs.
Context {T : Type}.
Implicit Type s : state T.

Lemma step_inv : forall t s R Q m E X, invs s R Q m E X -> exists s', step s t = Ok s' /\ inv s'.
Proof.
  intros t s R Q m E X I. unfold step. destruct t as [a|].
  - destruct (pstep_inv a s R Q m E X I) as (r & -> & H). cbn [obind]. eexists. split; [reflexivity|].
    destruct r as [s'|]; [|exists R, Q, m, E, X; exact I]. destruct (H s' eq_refl) as (R' & Q' & m' & E' & X' & I' & _). exists R', Q', m', E', X'. exact I'.
  - destruct (cstep_inv s R Q m E X I) as (r & -> & H). cbn [obind]. eexists. split; [reflexivity|].
    destruct r as [s'|]; [|exists R, Q, m, E, X; exact I]. destruct (H s' eq_refl) as (R' & Q' & m' & E' & X' & I' & _). exists R', Q', m', E', X'. exact I'.
Qed.
Lemma run_inv : forall sched s, inv s -> exists s', run sched s = Ok s' /\ inv s'.
Proof.
  unfold run. induction sched as [|t sched IH]; intros s I; [exists s; auto|].
  destruct I as (R & Q & m & E & X & I). destruct (step_inv t s _ _ _ _ _ I) as (s1 & H1 & I1). cbn [ofold]. rewrite H1. cbn [obind]. auto.
Qed.
Lemma busy_bound : forall sched s R Q m E X, invs s R Q m E X -> busy sched s <= meas s R Q m.
Proof.
  induction sched as [|t sched IH]; intros s R Q m E X I; cbn [busy]; [lia|]. destruct t as [a|].
  - destruct (pstep_inv a s R Q m E X I) as (r & -> & H). destruct r as [s'|]; [|eauto].
    destruct (H s' eq_refl) as (R' & Q' & m' & E' & X' & I' & L). specialize (IH s' _ _ _ _ _ I'). lia.
  - destruct (cstep_inv s R Q m E X I) as (r & -> & H). destruct r as [s'|]; [|eauto].
    destruct (H s' eq_refl) as (R' & Q' & m' & E' & X' & I' & L). specialize (IH s' _ _ _ _ _ I'). lia.
Qed.
Lemma busy_init : forall sched a0 (ps : list T) cs,
  busy sched (init a0 ps cs) <= 8 * length ps + 10 + length cs * (length ps + 6).
Proof.
  intros. pose proof (busy_bound sched _ _ _ _ _ _ (init_inv a0 ps cs)) as H. unfold meas, bb in H. cbn [init pjobs cjobs prod cons pweight cweight length] in H.
  rewrite !Nat.add_0_r in H. lia.
Qed.
Lemma pstep_stuck : forall a s, pstep a s = Ok None -> prod s = PIdle /\ (pjobs s = [] \/ hp s a <> None).
Proof.
  intros a [h f d l p c pj cj lg] H. cbn [pstep prod pjobs hp] in *. destruct p.
  - split; auto. destruct pj; auto. destruct (h a); [right|]; discriminate.
  - destruct (hget h l0); discriminate.
  - destruct (hget h l); cbn [obind] in H; try discriminate. destruct (deref (next a0)); discriminate.
  - destruct pj; discriminate.
  - discriminate.
  - destruct (hget h t); cbn [obind] in H; try discriminate. destruct (deref (next a0)); discriminate.
  - destruct (hget h t); discriminate.
Qed.
Lemma cstep_stuck : forall s, cstep s = Ok None -> cons s = CIdle /\ cjobs s = [].
Proof.
  intros [h f d l p c pj cj lg] H. cbn [cstep cons cjobs] in *. destruct c; try discriminate.
  - destruct cj as [|[] cj]; try discriminate. auto.
  - destruct (hget h d0); cbn [obind] in H; try discriminate. destruct (deref (next a)); discriminate.
  - destruct (hget h n); discriminate.
  - destruct (hget h d); cbn [obind] in H; try discriminate. destruct (deref (next a)); discriminate.
  - destruct (t =? e); [discriminate|]. destruct (hget h t); cbn [obind] in H; try discriminate. destruct (deref (next a)); discriminate.
Qed.

(* --- the history -------------------------------------------------------------------- *)
Lemma pushed_app : forall (a b : list (event T)), pushed (a ++ b) = pushed a ++ pushed b.
Proof. intros. apply flat_map_app. Qed.
Lemma popped_app : forall (a b : list (event T)), popped (a ++ b) = popped a ++ popped b.
Proof. intros. apply flat_map_app. Qed.
Lemma completed_app : forall (a b : list (event T)), completed (a ++ b) = completed a ++ completed b.
Proof. intros. apply flat_map_app. Qed.

Lemma accepted_fifo : forall es (q : list T) m, accepted es q m -> map Some (pushed es) = popped es ++ map Some q.
Proof.
  induction 1; rewrite ?pushed_app, ?popped_app, ?map_app, ?IHaccepted; cbn; rewrite ?app_nil_r; auto.
  - now rewrite <- app_assoc.
  - now rewrite <- app_assoc.
Qed.

Ltac jb := cbn [log pjobs cjobs cons inflight]; rewrite ?pushed_app, ?completed_app; unfold pushed, completed in *; cbn [flat_map app inflight] in *; rewrite <- ?app_assoc in *; cbn [app] in *; auto.
Definition jobs_inv (ps : list T) (cs : list cop) s : Prop :=
  pushed (log s) ++ pjobs s = ps /\ completed (log s) ++ inflight (cons s) ++ cjobs s = cs.
Lemma pstep_jobs : forall a s s' ps cs, jobs_inv ps cs s -> pstep a s = Ok (Some s') -> jobs_inv ps cs s'.
Proof.
  unfold jobs_inv. intros a [h f d l p c pj cj lg] s' ps cs (A & B) H. cbn [pstep log pjobs cjobs cons] in *. destruct p.
  - destruct pj; [discriminate|]. destruct (h a); [discriminate|]. injection H as <-. auto.
  - destruct (hget h l0); try discriminate. injection H as <-. auto.
  - destruct (hget h l); cbn [obind] in H; try discriminate. destruct (deref (next a0)); try discriminate. injection H as <-. auto.
  - destruct pj; [discriminate|]. injection H as <-. jb.
  - injection H as <-. auto.
  - destruct (hget h t); cbn [obind] in H; try discriminate. destruct (deref (next a0)); try discriminate. injection H as <-. auto.
  - destruct (hget h t); try discriminate. injection H as <-. auto.
Qed.
Lemma cstep_jobs : forall s s' ps cs, jobs_inv ps cs s -> cstep s = Ok (Some s') -> jobs_inv ps cs s'.
Proof.
  unfold jobs_inv. intros [h f d l p c pj cj lg] s' ps cs (A & B) H. cbn [cstep log pjobs cjobs cons] in *. destruct c.
  - destruct cj as [|[] cj]; try discriminate; injection H as <-; cbn [log pjobs cjobs cons inflight]; auto.
  - injection H as <-. destruct (d0 =? l); cbn [log pjobs cjobs cons inflight]; auto.
    jb.
  - destruct (hget h d0); cbn [obind] in H; try discriminate. destruct (deref (next a)); try discriminate. injection H as <-. auto.
  - destruct (hget h n); try discriminate. injection H as <-. auto.
  - destruct (hget h d); cbn [obind] in H; try discriminate. destruct (deref (next a)); try discriminate. injection H as <-. auto.
  - injection H as <-. jb.
  - injection H as <-. jb.
  - destruct (t =? e).
    + injection H as <-. jb.
    + destruct (hget h t); cbn [obind] in H; try discriminate. destruct (deref (next a)); try discriminate. injection H as <-. auto.
  - injection H as <-. jb.
Qed.
Lemma run_jobs : forall sched s s' ps cs, jobs_inv ps cs s -> run sched s = Ok s' -> jobs_inv ps cs s'.
Proof.
  unfold run. induction sched as [|t sched IH]; cbn [ofold]; intros s s' ps cs J H; [injection H as <-; auto|].
  destruct (step s t) as [s1| | | |] eqn:E; try discriminate. cbn [obind] in H. eapply IH; [|exact H].
  unfold step in E. destruct t as [a|].
  - destruct (pstep a s) as [[s2|]| | | |] eqn:E2; try discriminate; injection E as <-; [eapply pstep_jobs; eauto|auto].
  - destruct (cstep s) as [[s2|]| | | |] eqn:E2; try discriminate; injection E as <-; [eapply cstep_jobs; eauto|auto].
Qed.

(* --- no data race --------------------------------------------------------------------- *)
Lemma inv_no_race : forall s x y, inv s -> paccess s = Some x -> caccess s = Some y -> ~ conflict x y.
Proof.
  intros s x y (R & Q & m & E & X & G & PI & CI) HP HC. 
  pose proof (g_nodup _ _ _ _ _ _ G) as ND. pose proof (g_last _ _ _ _ _ _ G) as LS.
  assert (ID : In (dummy s) (ch (dummy s) R Q)) by (unfold ch; apply in_app_iff; right; now left).
  (* the consumer's node is in the chain, and if it looks at next it is not the last one *)
  assert (CC : In (fst (fst y)) (ch (dummy s) R Q) /\ (snd (fst y) = FNext /\ fst (fst y) <> last s /\ snd y = false \/ snd (fst y) = FData)).
  { assert (DL : Q <> [] -> dummy s <> last s).
    { intros NQ Ed. rewrite <- Ed in LS. assert (length R = length R + length Q) by (eapply nodup_nth; [exact ND|apply ch_dummy|exact LS]).
      destruct Q; [contradiction|]. cbn in *. lia. }
    unfold caccess in HC. unfold cinv in CI. destruct (cons s) as [|d'|d'|n|v|v n|t|t e n|d']; try discriminate.
    - injection HC as <-. destruct CI as (-> & NQ). cbn. split; auto.
    - injection HC as <-. destruct CI as (v & Q' & ->). cbn. split; auto. unfold ch. apply in_app_iff. right. cbn. auto.
    - injection HC as <-. destruct CI as (n & w & Q' & -> & ->). cbn. split; auto. left. split; auto. split; auto. apply DL. discriminate.
    - destruct (Nat.eqb_spec t e) as [|Nt]; [discriminate|]. injection HC as <-. destruct CI as (L & A & B). cbn.
      rewrite <- (ch_queue _ R) in A, B. split; [eapply nth_error_In; eauto|]. left. split; auto. split; auto. intros ->.
      assert (length R + n = length R + length Q) by (eapply nodup_nth; eauto).
      assert (m < S (length Q)); [|].
      { rewrite ch_queue in B. assert (HB : m < length (dummy s :: map fst Q)) by (apply nth_error_Some; congruence). cbn in HB. now rewrite map_length in HB. }
      assert (n = m) by lia. subst n. congruence. }
  destruct y as ((b & g) & w'). cbn in CC. destruct CC as (CI' & CF).
  unfold paccess in HP. unfold pinv in PI. destruct (prod s) as [|l x'| |x'| |t|t]; try discriminate; injection HP as <-; intros (EA & OV & W); subst b.
  - destruct PI as (_ & _ & -> & _). destruct CF as [(-> & N & ->)| ->]; [contradiction|]. destruct OV as [?|[?|?]]; discriminate.
  - destruct CF as [(-> & N & ->)| ->]; [contradiction|]. destruct OV as [?|[?|?]]; discriminate.
  - destruct CF as [(-> & N & ->)| ->]; [destruct W; discriminate|]. destruct OV as [?|[?|?]]; discriminate.
  - destruct PI as (_ & -> & _). eapply chain_not_extra; [exact ND|exact CI'|now left].
Qed.

(* --- the destructor and clear ---------------------------------------------------------- *)
Lemma destroy_chain : forall l (h : heap T) fuel,
  NoDup l -> (forall k a, nth_error l k = Some a -> exists d, h a = Some (Node d (nth_error l (k + 1)))) ->
  (forall a, h a <> None -> In a l) -> length l <= fuel ->
  exists h', destroy fuel h (nth_error l 0) = Ok h' /\ forall a, h' a = None.
Proof.
  induction l as [|a l IH]; intros h fuel ND LK DM F.
  - exists h. cbn. split; [destruct fuel; reflexivity|]. intros a. destruct (h a) eqn:E; auto. exfalso. apply (DM a). congruence.
  - cbn in F. destruct fuel as [|fuel]; [lia|]. cbn [nth_error destroy]. destruct (LK 0 a eq_refl) as (d & Ha). unfold hget. rewrite Ha. cbn [obind next].
    replace (nth_error (a :: l) (0 + 1)) with (nth_error l 0) by reflexivity. inversion ND; subst. apply IH; auto; [| |lia].
    + intros k b H. destruct (LK (S k) b H) as (d' & Hb). exists d'. rewrite hset_other; [exact Hb|]. intros ->. apply nth_error_In in H. contradiction.
    + intros b H. destruct (Nat.eq_dec b a) as [->|Nb]; [rewrite hset_same in H; contradiction|]. rewrite hset_other in H by auto.
      destruct (DM b H) as [->|?]; [contradiction|auto].
Qed.
Lemma destroy_ok : forall s, inv s -> prod s = PIdle ->
  exists n, forall fuel, n <= fuel -> exists h', destroy fuel (hp s) (Some (first s)) = Ok h' /\ forall a, h' a = None.
Proof.
  intros s (R & Q & m & E & X & G & PI & CI) HP. unfold pinv in PI. rewrite HP in PI. destruct PI as (-> & ->).
  pose proof (g_nodup _ _ _ _ _ _ G) as ND. pose proof (g_link _ _ _ _ _ _ G) as LK. pose proof (g_dom _ _ _ _ _ _ G) as DM. pose proof (g_first _ _ _ _ _ _ G) as FS.
  rewrite app_nil_r in *. exists (length (ch (dummy s) R Q)). intros fuel F. rewrite <- FS. apply destroy_chain; auto.
Qed.

Lemma clear1_ok : forall R d (Q : list (nat * T)) (h : heap T) f fuel,
  NoDup (ch d R Q) -> nth_error (ch d R Q) 0 = Some f ->
  (forall k a, nth_error (ch d R Q) k = Some a -> exists x, h a = Some (Node x (nth_error (ch d R Q) (k + 1)))) ->
  (forall a, h a <> None -> In a (ch d R Q)) -> length R <= fuel ->
  exists h', clear1 fuel h f d = Ok h' /\
    (forall k a, nth_error (ch d [] Q) k = Some a -> exists x, h' a = Some (Node x (nth_error (ch d [] Q) (k + 1)))) /\
    (forall a, h' a <> None -> In a (ch d [] Q)).
Proof.
  induction R as [|r R IH]; intros d Q h f fuel ND FS LK DM F.
  - cbn in FS. injection FS as <-. exists h. split; [|auto]. destruct fuel; cbn [clear1]; now rewrite Nat.eqb_refl.
  - cbn in FS. injection FS as <-. cbn in F. destruct fuel as [|fuel]; [lia|]. cbn [clear1].
    assert (ND' : NoDup (r :: ch d R Q)) by exact ND. inversion ND' as [|? ? NI NR]; subst.
    destruct (Nat.eqb_spec r d) as [->|Nr]. { exfalso. apply NI. unfold ch. apply in_app_iff. right. now left. }
    destruct (LK 0 r eq_refl) as (x & Hr). unfold hget. rewrite Hr. cbn [obind next].
    change (nth_error (ch d (r :: R) Q) (0 + 1)) with (nth_error (ch d R Q) 0).
    destruct (nth_error (ch d R Q) 0) as [f2|] eqn:F2; [|apply nth_error_None in F2; rewrite ch_length in F2; lia]. cbn [deref obind].
    apply IH; auto; [| |lia].
    + intros k b H. destruct (LK (S k) b H) as (d' & Hb). exists d'. rewrite hset_other; [exact Hb|]. intros ->. apply nth_error_In in H. contradiction.
    + intros b H. destruct (Nat.eq_dec b r) as [->|Nb]; [rewrite hset_same in H; contradiction|]. rewrite hset_other in H by auto.
      destruct (DM b H) as [->|?]; [contradiction|auto].
Qed.
Lemma clear2_ok : forall (Q : list (nat * T)) d (h : heap T) fuel,
  NoDup (ch d [] Q) ->
  (forall k a, nth_error (ch d [] Q) k = Some a -> exists x, h a = Some (Node x (nth_error (ch d [] Q) (k + 1)))) ->
  (forall a, h a <> None -> In a (ch d [] Q)) -> length Q <= fuel ->
  exists h' e x, clear2 fuel h d = Ok (h', e) /\ h' e = Some (Node x None) /\ forall a, a <> e -> h' a = None.
Proof.
  induction Q as [|(a, v) Q IH]; intros d h fuel ND LK DM F.
  - destruct (LK 0 d eq_refl) as (x & Hd). exists h, d, x. split; [|split].
    + destruct fuel; cbn [clear2]; unfold hget; rewrite Hd; reflexivity.
    + exact Hd.
    + intros b Nb. destruct (h b) eqn:E; auto. exfalso. destruct (DM b) as [?|[]]; [congruence|]. now apply Nb.
  - cbn in F. destruct fuel as [|fuel]; [lia|]. cbn [clear2]. destruct (LK 0 d eq_refl) as (x & Hd). unfold hget. rewrite Hd. cbn [obind next].
    change (nth_error (ch d [] ((a, v) :: Q)) (0 + 1)) with (Some a). cbv iota.
    assert (ND' : NoDup (d :: ch a [] Q)) by exact ND. inversion ND' as [|? ? NI NR]; subst. apply IH; auto; [| |lia].
    + intros k b H. destruct (LK (S k) b H) as (d' & Hb). exists d'. rewrite hset_other; [exact Hb|]. intros ->. apply nth_error_In in H. contradiction.
    + intros b H. destruct (Nat.eq_dec b d) as [->|Nb]; [rewrite hset_same in H; contradiction|]. rewrite hset_other in H by auto.
      destruct (DM b H) as [->|?]; [contradiction|auto].
Qed.
Lemma clear_ok : forall s, inv s -> prod s = PIdle -> cons s = CIdle ->
  exists n, forall fuel, n <= fuel -> exists s', clear fuel s = Ok s' /\
    (exists x, hp s' (first s') = Some (Node x None)) /\ (forall a, a <> first s' -> hp s' a = None) /\
    dummy s' = first s' /\ last s' = first s' /\ pjobs s' = pjobs s /\ cjobs s' = cjobs s /\ log s' = log s /\
    inv (forget s').
Proof.
  intros s (R & Q & m & E & X & G & PI & CI) HP HC. unfold pinv in PI. rewrite HP in PI. destruct PI as (-> & ->).
  pose proof (g_nodup _ _ _ _ _ _ G) as ND. pose proof (g_link _ _ _ _ _ _ G) as LK. pose proof (g_dom _ _ _ _ _ _ G) as DM. pose proof (g_first _ _ _ _ _ _ G) as FS.
  rewrite app_nil_r in *. destruct s as [h f d l p c pj cj lg]. cbn [hp first dummy last prod cons] in *. subst p c.
  exists (length R + length Q). intros fuel F.
  destruct (clear1_ok R d Q h f fuel ND FS LK DM ltac:(lia)) as (h1 & E1 & L1 & D1).
  assert (ND1 : NoDup (ch d [] Q)). { unfold ch in *. cbn. clear -ND. induction R as [|r R IH]; auto. inversion ND. auto. }
  destruct (clear2_ok Q d h1 fuel ND1 L1 D1 ltac:(lia)) as (h2 & e & x & E2 & He & Ho).
  unfold clear. rewrite E1. cbn [obind]. rewrite E2. cbn [obind]. eexists. split; [reflexivity|]. cbn [hp first dummy last pjobs cjobs log].
  repeat split; auto; [exists x; exact He|]. exists [], [], 0, [], []. split; [|split; cbn; auto]. split; cbn.
  - constructor.
  - repeat constructor. intros [].
  - reflexivity.
  - reflexivity.
  - intros [|[|k]] a H; try discriminate. injection H as <-. exists x. exact He.
  - intros a H. left. destruct (Nat.eq_dec a e); auto. contradiction (H (Ho a n)).
  - intros k a v H. destruct k; discriminate.
Qed.

Lemma run_accepted : forall sched s, inv s -> exists st q m, run sched s = Ok st /\ accepted (log st) q m /\ inv st.
Proof.
  intros sched s I. destruct (run_inv sched s I) as (st & H & J). pose proof J as (R & Q & m & E & X & G & _).
  exists st, (map snd Q), m. split; auto. split; auto. apply (g_acc _ _ _ _ _ _ G).
Qed.
Lemma init_inv' : forall a0 (ps : list T) cs, inv (init a0 ps cs).
Proof. intros. exists [], [], 0, [], []. apply init_inv. Qed.
End Proofs.
