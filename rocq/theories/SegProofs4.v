(* Lemmas on segmentation, part 4: removal of small segments, and the whole function. *)
From Coq Require Import NArith ZifyBool ZifyNat Permutation.
From Verif Require Import Base IndexModel IndexProofs VecModel VecProofs VecProofs2 ImageModel ImageSpec ImageProofs
  ImageProofs2 ImageProofs3 ImageProofs4 SegModel SegSpec SegProofs SegProofs2 SegProofs3.

(* what foreach_segment counts for a segment of k pixels *)
Definition counted (k : nat) : nat := if k =? 1 then 1 else k + 1.

Section Small.
Context (n m : nat).
Notation ing := (ing n m).
Notation pos := (pos m).
Notation val := (val m).

Lemma erase_ok : forall l sm, length sm = n * m -> (forall p, In p l -> ing p) ->
  exists sm', erase sm (map pos l) = Ok sm' /\ length sm' = n * m /\
    (forall p, ing p -> In p l -> val 0 sm' p = 0) /\ (forall p, ing p -> ~ In p l -> val 0 sm' p = val 0 sm p).
Proof.
  unfold erase. induction l as [|q l IH]; intros sm L I.
  - exists sm. cbn. split; [reflexivity|]. split; [exact L|]. split; [contradiction|auto].
  - assert (Iq : ing q) by (apply I; left; reflexivity). cbn [map ofold].
    unfold check at 1. rewrite (proj2 (Nat.ltb_lt (pos q) (length sm))) by (rewrite L; apply (ing_pos n m); exact Iq). cbn [obind].
    rewrite oset_ok with (n := n) by auto. cbn [obind].
    destruct (IH (upd sm (pos q) 0)) as (sm' & E & L' & A & B).
    + rewrite upd_length. exact L.
    + intros p Hp. apply I. right. exact Hp.
    + exists sm'. split; [exact E|]. split; [exact L'|]. split.
      * intros p Hp [<-|H]; [|auto]. destruct (in_dec prod_eq_dec_nat q l) as [H|H]; [auto|].
        rewrite B by auto. apply (val_upd_same n m); auto.
      * intros p Hp H. rewrite B by (auto; intro C; apply H; right; exact C).
        apply (val_upd_other n m); auto. intros ->. apply H. left. reflexivity.
Qed.

Context (mp0 : list bool) (f : nat) (F1 : 0 < f) (sm0 : list nat) (out0 : list seg) (LB : labelled n m mp0 f sm0 out0) (mn : nat).
Notation O := (O n m mp0).

Definition gone (eids : list nat) (k : nat) : bool := existsb (fun j => f + j =? k) eids.
Lemma gone_in eids k : gone eids k = true <-> exists j, In j eids /\ k = f + j.
Proof.
  unfold gone. rewrite existsb_exists. split; intros (j & H & E); exists j; (split; [exact H|]); [apply Nat.eqb_eq in E|apply Nat.eqb_eq]; lia.
Qed.
Lemma nth_id i o : nth_error out0 i = Some o -> s_id o = f + i.
Proof.
  intros E. pose proof (l_ids _ _ _ _ _ _ LB) as I.
  assert (E' : nth_error (map s_id out0) i = Some (s_id o)) by (apply map_nth_error; exact E).
  rewrite I in E'. assert (i < length out0) by (apply nth_error_Some; congruence).
  rewrite nth_error_seq in E'. destruct (Nat.ltb_spec i (length out0)); [congruence|lia].
Qed.
Lemma label_conn o p0 p : good_seg n m mp0 o p0 -> val 0 sm0 p0 = s_id o -> In o out0 -> ing p ->
  val 0 sm0 p = s_id o <-> conn O p0 p.
Proof.
  intros G E Ho Ip. assert (NZ : s_id o <> 0).
  { assert (H : In (s_id o) (seq f (length out0))) by (rewrite <- (l_ids _ _ _ _ _ _ LB); apply in_map; exact Ho). apply in_seq in H. lia. }
  destruct G as (O0 & _). split.
  - intros H. apply (l_conn _ _ _ _ _ _ LB); auto; [|congruence]. split; [exact Ip|].
    destruct (SegProofs.val m false mp0 p) eqn:V; [reflexivity|]. apply (l_zero _ _ _ _ _ _ LB p Ip) in V. congruence.
  - intros H. rewrite <- E. symmetry. apply (l_conn _ _ _ _ _ _ LB); auto. apply conn_P in H. tauto.
Qed.
Lemma conn_conn p0 p : conn (conn O p0) p0 p <-> conn O p0 p.
Proof.
  split.
  - intros H. apply conn_P in H. tauto.
  - intros H. assert (H0 := conn_P _ _ _ H). destruct H0 as (P0 & _). induction H as [_|q r H IH A Pr].
    + apply conn_refl, conn_refl. exact P0.
    + eapply conn_step; [exact IH|exact A|]. eapply conn_step; eauto.
Qed.

Lemma small_ok : forall todo done sm vis eids, out0 = done ++ todo ->
  length sm = n * m -> length vis = n * m ->
  (forall p, ing p -> val 0 sm p = if gone eids (val 0 sm0 p) then 0 else val 0 sm0 p) ->
  (forall p, ing p -> val 0 vis p = 0 \/ In (val 0 vis p) (map s_id done)) ->
  (forall j, In j eids -> j < length done) ->
  (forall j o, nth_error done j = Some o -> forall l, lists_pixels (fun p => ing p /\ val 0 sm0 p = s_id o) l ->
     In j eids <-> counted (length l) < mn) ->
  exists sm' vis' eids', ofold (fun '(sm, vis, eids, i) o =>
      '(ids, vis) <- one_segment n m sm vis (s_origin o) ;;
      if length ids <? mn
      then sm <- erase sm ids ;; Ok (sm, vis, eids ++ [i], i + 1)
      else Ok (sm, vis, eids, i + 1)) todo (sm, vis, eids, length done) = Ok (sm', vis', eids', length out0) /\
    length sm' = n * m /\
    (forall p, ing p -> val 0 sm' p = if gone eids' (val 0 sm0 p) then 0 else val 0 sm0 p) /\
    (forall j o, nth_error out0 j = Some o -> forall l, lists_pixels (fun p => ing p /\ val 0 sm0 p = s_id o) l ->
       In j eids' <-> counted (length l) < mn).
Proof.
  induction todo as [|o todo IH]; intros done sm vis eids EO LS LV HS HV HE HC.
  - exists sm, vis, eids. rewrite app_nil_r in EO. subst out0. cbn. auto.
  - set (i := length done) in *.
    assert (Ei : nth_error out0 i = Some o) by (rewrite EO; apply nth_error_mid).
    assert (Ho : In o out0) by (rewrite EO; apply in_app_iff; right; left; reflexivity).
    pose proof (nth_id i o Ei) as EID.
    destruct (l_out _ _ _ _ _ _ LB o Ho) as (p0 & G & EP).
    pose proof (fun p => label_conn o p0 p G EP Ho) as LC.
    assert (O0 := proj1 G). assert (I0 := proj1 O0). assert (OR : s_origin o = pos p0) by apply G.
    assert (NG : gone eids (s_id o) = false).
    { destruct (gone eids (s_id o)) eqn:C; [|reflexivity]. apply gone_in in C. destruct C as (j & Hj & C).
      apply HE in Hj. fold i in Hj. lia. }
    assert (VP : val 0 sm p0 = s_id o) by (rewrite HS, EP, NG by exact I0; reflexivity).
    assert (MC : forall p, M n m sm (s_id o) p <-> conn O p0 p).
    { intros p. unfold M. split.
      - intros (Ip & V). rewrite HS in V by exact Ip. destruct (gone eids (val 0 sm0 p)); [lia|]. apply LC; assumption.
      - intros C. assert (Op : O p) by (apply conn_P in C; tauto). split; [apply Op|]. apply LC in C; [|apply Op].
        rewrite HS by apply Op. rewrite C, NG. reflexivity. }
    assert (CC : forall p, conn (M n m sm (s_id o)) p0 p <-> conn O p0 p).
    { intros p. rewrite (conn_iff _ _ p0 p MC). apply conn_conn. }
    destruct (one_ok n m sm vis (s_origin o) p0 LS LV I0 OR) as (rest & vis' & E & L' & V' & ND & HR).
    { intros p Hp C. rewrite VP in C. destruct (HV p Hp) as [H|H]; [lia|].
      rewrite C in H. apply in_map_iff in H. destruct H as (o' & E1 & H1). apply In_nth_error in H1. destruct H1 as (j & Ej).
      assert (j < length done) by (apply nth_error_Some; congruence).
      assert (E2 : nth_error out0 j = Some o') by (rewrite EO, nth_error_app1 by assumption; exact Ej).
      apply nth_id in E2. lia. }
    rewrite VP in *. cbn [ofold]. rewrite E. cbn [obind].
    assert (LEN : forall l, lists_pixels (fun p => ing p /\ val 0 sm0 p = s_id o) l ->
                  length (s_origin o :: map pos rest) = counted (length l)).
    { intros l HL. cbn [length]. rewrite map_length.
      apply (rest_length (M n m sm (s_id o)) p0 rest l); auto.
      - split; assumption.
      - eapply lists_iff; [|exact HL]. intros p. rewrite CC. cbn beta. split.
        + intros (Ip & V). apply LC; assumption.
        + intros C. assert (Op : O p) by (apply conn_P in C; tauto). split; [apply Op|]. apply LC; [apply Op|exact C]. }
    assert (EO' : out0 = (done ++ [o]) ++ todo) by (rewrite <- app_assoc; exact EO).
    assert (LD : length (done ++ [o]) = i + 1) by (rewrite app_length; reflexivity).
    assert (HV' : forall p, ing p -> val 0 vis' p = 0 \/ In (val 0 vis' p) (map s_id (done ++ [o]))).
    { intros p Hp. rewrite map_app, in_app_iff. cbn [map In]. destruct (V' p Hp) as [H|H]; rewrite H; [auto|].
      destruct (HV p Hp) as [H1|H1]; auto. }
    destruct (Nat.ltb_spec (length (s_origin o :: map pos rest)) mn) as [LT|GE].
    + rewrite OR. change (pos p0 :: map pos rest) with (map pos (p0 :: rest)).
      assert (HRest : forall p, In p (p0 :: rest) <-> conn O p0 p).
      { intros p. split.
        - intros [<-|H]; [apply conn_refl; exact O0|]. apply HR in H. apply CC. tauto.
        - intros C. destruct (prod_eq_dec_nat p0 p) as [->|N]; [left; reflexivity|]. right. apply HR. split; [apply CC; exact C|].
          apply CC in C. destruct C as [|q r C A Pr]; [contradiction|]. exists q. auto. }
      destruct (erase_ok (p0 :: rest) sm LS) as (sm1 & E1 & L1 & A1 & B1).
      { intros p Hp. apply HRest in Hp. apply conn_P in Hp. destruct Hp as (_ & Ip & _). exact Ip. }
      rewrite E1. cbn [obind]. rewrite <- LD.
      apply (IH (done ++ [o]) sm1 vis' (eids ++ [i])); auto.
      * intros p Hp. assert (GA : gone (eids ++ [i]) (val 0 sm0 p) = gone eids (val 0 sm0 p) || (f + i =? val 0 sm0 p)).
        { unfold gone. rewrite existsb_app. cbn [existsb]. rewrite orb_false_r. reflexivity. }
        rewrite GA. destruct (Nat.eqb_spec (f + i) (val 0 sm0 p)) as [Q|Q].
        -- rewrite orb_true_r. apply A1; [exact Hp|]. apply HRest. apply LC; [exact Hp|]. congruence.
        -- rewrite orb_false_r. rewrite B1, HS by (auto; intro C; apply HRest, LC in C; auto; congruence). reflexivity.
      * intros j Hj. rewrite LD. apply in_app_iff in Hj. destruct Hj as [Hj|[<-|[]]]; [apply HE in Hj; fold i in Hj; lia|lia].
      * intros j o' Ej l HL. rewrite in_app_iff. cbn [In].
        destruct (Nat.lt_ge_cases j i) as [Lj|Lj].
        -- rewrite nth_error_app1 in Ej by exact Lj. rewrite <- (HC j o' Ej l HL). split; [|auto]. intros [H|[H|[]]]; [exact H|lia].
        -- assert (j = i). { assert (j < length (done ++ [o])) by (apply nth_error_Some; congruence). lia. }
           subst j. unfold i in Ej. rewrite nth_error_mid in Ej. injection Ej as <-. rewrite <- (LEN l HL). split; [intros _; exact LT|auto].
    + rewrite <- LD. apply (IH (done ++ [o]) sm vis' eids); auto.
      * intros j Hj. apply HE in Hj. fold i in Hj. lia.
      * intros j o' Ej l HL. destruct (Nat.lt_ge_cases j i) as [Lj|Lj].
        -- rewrite nth_error_app1 in Ej by exact Lj. apply (HC j o' Ej l HL).
        -- assert (j = i). { assert (j < length (done ++ [o])) by (apply nth_error_Some; congruence). lia. }
           subst j. unfold i in Ej. rewrite nth_error_mid in Ej. injection Ej as <-. rewrite <- (LEN l HL).
           split; [intros H; apply HE in H; fold i in H; lia|lia].
Qed.

Lemma remove_ids eids : remove_segs out0 eids = filter (fun o => negb (gone eids (s_id o))) out0.
Proof.
  unfold remove_segs. pose proof nth_id as NI.
  assert (G : forall l s, (forall i o, nth_error l i = Some o -> s_id o = f + (s + i)) ->
    map snd (filter (fun p => negb (existsb (Nat.eqb (fst p)) eids)) (combine (seq s (length l)) l)) =
    filter (fun o => negb (gone eids (s_id o))) l).
  { clear. induction l as [|o l IH]; intros s H; [reflexivity|]. cbn [length seq combine filter fst].
    assert (Eo : s_id o = f + s) by (rewrite (H 0 o eq_refl); lia).
    assert (EX : existsb (Nat.eqb s) eids = gone eids (s_id o)).
    { unfold gone. rewrite Eo. clear. induction eids as [|j e IH]; cbn; [reflexivity|]. rewrite IH. f_equal.
      destruct (Nat.eqb_spec s j), (Nat.eqb_spec (f + j) (f + s)); auto; lia. }
    rewrite EX. assert (IH' := IH (S s)). destruct (negb (gone eids (s_id o))); cbn [map snd]; rewrite IH'; auto;
      intros i o' E; rewrite (H (S i) o' E); lia. }
  apply (G out0 0). intros i o E. rewrite (NI i o E). lia.
Qed.

Lemma erase_small_ok : exists sm' keep, 
  erase_small n m mn sm0 out0 = Ok (sm', keep) /\ length sm' = n * m /\
  (forall p, ing p -> val 0 sm' p = if gone keep (val 0 sm0 p) then 0 else val 0 sm0 p) /\
  (forall o, In o out0 -> forall l, lists_pixels (fun p => ing p /\ val 0 sm0 p = s_id o) l ->
     gone keep (s_id o) = true <-> counted (length l) < mn).
Proof.
  assert (Z : forall p, val 0 (repeat 0 (n * m)) p = 0).
  { intros p. unfold SegProofs.val. generalize (SegProofs.pos m p) (n * m). clear. intros i k. revert i.
    induction k as [|k IH]; intros [|i]; cbn; auto. }
  destruct (small_ok out0 [] sm0 (repeat 0 (n * m)) [] eq_refl) as (sm' & vis' & eids & E & L & V & D); auto.
  - apply (l_len _ _ _ _ _ _ LB).
  - apply repeat_length.
  - contradiction.
  - intros [|j] o E; discriminate.
  - unfold erase_small. cbn [length] in E. rewrite E. cbn [obind]. exists sm', eids. split; [reflexivity|]. split; [exact L|].
    split; [exact V|]. intros o Ho l HL. apply In_nth_error in Ho. destruct Ho as (i & Ei). rewrite <- (D i o Ei l HL).
    rewrite gone_in, (nth_id i o Ei). split.
    + intros (j & Hj & C). replace i with j by lia. exact Hj.
    + intros H. exists i. auto.
Qed.
End Small.

(* ---- the images ---- *)
Lemma at_val {A} (dflt : A) (v : img A) p : wf v -> at_ v p = if (fst p <? nr v) && (snd p <? nc v) then Some (val (nc v) dflt (pix v) p) else None.
Proof.
  intros W. unfold at_. destruct (Nat.ltb_spec (fst p) (nr v)), (Nat.ltb_spec (snd p) (nc v)); cbn [andb].
  - rewrite px_in by assumption. apply (nth_error_val (nr v) (nc v)); [exact W|]. split; assumption.
  - apply px_out. lia.
  - apply px_out. lia.
  - apply px_out. lia.
Qed.
Lemma at_some {A} (dflt : A) (v : img A) p a : wf v -> at_ v p = Some a <-> ing (nr v) (nc v) p /\ val (nc v) dflt (pix v) p = a.
Proof.
  intros W. rewrite (at_val dflt v p W). unfold ing. destruct (Nat.ltb_spec (fst p) (nr v)), (Nat.ltb_spec (snd p) (nc v)); cbn [andb];
    (split; [intros H'; try discriminate; injection H' as <-; auto|intros ((? & ?) & <-); auto; lia]).
Qed.

Definition lit_up (map_ : img bool) (p : nat * nat) : Prop := at_ map_ p = Some true.
Record segmentation (map_ : img bool) (first : nat) (w : img nat) (out : list seg) : Prop := {
  sg_nr : nr w = nr map_; sg_nc : nc w = nc map_; sg_wf : wf w;
  sg_zero : forall p, at_ w p = Some 0 <-> at_ map_ p = Some false;
  sg_conn : forall p q, lit_up map_ p -> lit_up map_ q -> at_ w p = at_ w q <-> conn (lit_up map_) p q;
  sg_ids : map s_id out = seq first (length out);
  sg_used : forall p, lit_up map_ p -> exists o, In o out /\ at_ w p = Some (s_id o);
  sg_out : forall o, In o out -> exists p0, s_origin o = fst p0 * nc map_ + snd p0 /\ at_ w p0 = Some (s_id o) /\
    (forall q, at_ w q = Some (s_id o) -> q = p0 \/ before p0 q) /\
    (exists E, sides (fun p => at_ w p = Some (s_id o)) E /\ s_area o = 1 + length E) /\
    (forall l, lists_pixels (fun p => at_ w p = Some (s_id o)) l -> length l <= s_area o) }.

Lemma labelled_seg map_ first sm out : wf map_ -> 0 < first -> labelled (nr map_) (nc map_) (pix map_) first sm out ->
  segmentation map_ first (Img (nr map_) (nc map_) sm) out.
Proof.
  intros W F L. assert (W' : wf (Img (nr map_) (nc map_) sm)) by apply L.
  assert (AO : forall p, lit_up map_ p <-> O (nr map_) (nc map_) (pix map_) p).
  { intros p. unfold lit_up. rewrite (at_some false map_ p true W). reflexivity. }
  assert (AW : forall p k, at_ (Img (nr map_) (nc map_) sm) p = Some k <-> ing (nr map_) (nc map_) p /\ val (nc map_) 0 sm p = k).
  { intros p k. apply (at_some 0 _ p k W'). }
  assert (ISID : forall o, In o out -> s_id o <> 0).
  { intros o Ho. assert (H : In (s_id o) (seq first (length out))) by (rewrite <- (l_ids _ _ _ _ _ _ L); apply in_map; exact Ho).
    apply in_seq in H. lia. }
  constructor; cbn [nr nc]; auto.
  - intros p. rewrite AW, (at_some false map_ p false W). split; intros (I & V); (split; [exact I|]); apply (l_zero _ _ _ _ _ _ L p I); exact V.
  - intros p q Hp Hq. rewrite AO in Hp, Hq. rewrite (conn_iff _ _ p q AO), <- (l_conn _ _ _ _ _ _ L p q Hp Hq).
    rewrite (proj2 (AW p _) (conj (proj1 Hp) eq_refl)), (proj2 (AW q _) (conj (proj1 Hq) eq_refl)).
    split; [intros H; injection H; auto|intros ->; reflexivity].
  - apply L.
  - intros p Hp. rewrite AO in Hp. pose proof (l_rng _ _ _ _ _ _ L p Hp) as R.
    assert (H : In (val (nc map_) 0 sm p) (map s_id out)) by (rewrite (l_ids _ _ _ _ _ _ L); apply in_seq; exact R).
    apply in_map_iff in H. destruct H as (o & E & Ho). exists o. split; [exact Ho|]. apply AW. split; [apply Hp|congruence].
  - intros o Ho. destruct (l_out _ _ _ _ _ _ L o Ho) as (p0 & G & E). exists p0.
    pose proof (fun p => label_conn (nr map_) (nc map_) (pix map_) first F sm out L o p0 p G E Ho) as LC.
    assert (AC : forall p, at_ (Img (nr map_) (nc map_) sm) p = Some (s_id o) <-> conn (O (nr map_) (nc map_) (pix map_)) p0 p).
    { intros p. rewrite AW. split; [intros (I & V); apply LC; assumption|]. intros C.
      assert (Op := conn_P _ _ _ C). destruct Op as (_ & Ip & _). split; [exact Ip|]. apply LC; assumption. }
    destruct G as (O0 & OR & FI & (Es & SD & AR) & PX).
    split; [exact OR|]. split; [apply AC, conn_refl; exact O0|]. split; [|split].
    + intros q Hq. apply FI, AC, Hq.
    + exists Es. split; [|exact AR]. eapply sides_iff; [|exact SD]. intros p. symmetry. apply AC.
    + intros l Hl. apply PX. eapply lists_iff; [|exact Hl]. exact AC.
Qed.

Lemma segment_ok map_ first mn : wf map_ -> 0 < first -> fits (nr map_) (nc map_) ->
  (Z.of_nat (first + nr map_ * nc map_) < two64)%Z ->
  exists w out, segmentation map_ first w out /\ segment map_ 0 first = Ok (w, out) /\
    (existsb (fun o => s_area o <? mn) out = false -> segment map_ mn first = Ok (w, out)) /\
    (existsb (fun o => s_area o <? mn) out = true -> exists w' drop,
       segment map_ mn first = Ok (w', filter (fun o => negb (drop (s_id o))) out) /\
       nr w' = nr map_ /\ nc w' = nc map_ /\ wf w' /\
       (forall p k, at_ w p = Some k -> at_ w' p = Some (if drop k then 0 else k)) /\
       (forall o, In o out -> forall l, lists_pixels (fun p => at_ w p = Some (s_id o)) l ->
          drop (s_id o) = true <-> counted (length l) < mn)).
Proof.
  intros W F (B1 & B2 & B3) BF. 
  destruct (scan_ok (nr map_) (nc map_) (pix map_) first W F) as (s & E & L); [unfold two64; lia|exact BF|].
  exists (Img (nr map_) (nc map_) (c_smap s)), (c_out s). 
  split; [apply labelled_seg; assumption|].
  assert (CK : check (0 <? first) = Ok tt) by (unfold check; rewrite (proj2 (Nat.ltb_lt 0 first) F); reflexivity).
  split; [|split].
  - unfold segment. rewrite CK. cbn [obind]. rewrite E. cbn [obind].
    replace (existsb (fun o => s_area o <? 0) (c_out s)) with false; [reflexivity|].
    symmetry. clear. induction (c_out s) as [|o l IH]; [reflexivity|]. cbn [existsb]. rewrite IH. reflexivity.
  - intros X. unfold segment. rewrite CK. cbn [obind]. rewrite E. cbn [obind]. rewrite X. reflexivity.
  - intros X. destruct (erase_small_ok (nr map_) (nc map_) (pix map_) first F (c_smap s) (c_out s) L mn) as (sm' & keep & E' & L' & V & D).
    assert (W' : wf (Img (nr map_) (nc map_) sm')) by exact L'.
    assert (W0 : wf (Img (nr map_) (nc map_) (c_smap s))) by apply L.
    exists (Img (nr map_) (nc map_) sm'), (gone first keep). split; [|split; [reflexivity|split; [reflexivity|split; [exact W'|split]]]].
    + unfold segment. rewrite CK. cbn [obind]. rewrite E. cbn [obind]. rewrite X, E'. cbn [obind].
      rewrite (remove_ids (nr map_) (nc map_) (pix map_) first F (c_smap s) (c_out s) L). reflexivity.
    + intros p k H. apply (at_some 0 _ p k W0) in H. destruct H as (I & H). apply (at_some 0 _ p _ W'). split; [exact I|].
      cbn [nc pix] in *. rewrite (V p I), H. reflexivity.
    + intros o Ho l HL. apply (D o Ho). eapply lists_iff; [|exact HL]. intros p. cbn beta. rewrite (at_some 0 _ p _ W0). reflexivity.
Qed.
