(* Lemmas on segmentation with deblending, part 2: the detection. *)
From Coq Require Import NArith QArith ZifyBool ZifyNat Permutation.
From Verif Require Import Base IndexModel IndexProofs VecModel VecProofs VecProofs2 ImageModel ImageSpec ImageProofs
  ImageProofs2 ImageProofs3 ImageProofs4 SegModel SegSpec SegProofs SegProofs2 OrderModel OrderSpec OrderProofs SdistSpec
  DblendModel DblendSpec DblendProofs.
Local Open Scope nat_scope.

Section Detect.
Context (n m : nat) (P : params) (F0 : 0 < p_first P) (old_ids : list nat).
Notation ing := (ing n m).
Notation pos := (pos m).
Notation val := (val m).
Notation first := (p_first P).
Notation wn := (within (p_deblend P)).

Lemma pkd_ext seg seg' (O O' : list point) q : val 0 seg' q = val 0 seg q -> val 0 seg q - first < length O ->
  (exists t, O' = O ++ t) -> pkd m first seg' O' q = pkd m first seg O q.
Proof. intros E H (t & ->). unfold pkd. rewrite E, app_nth1 by exact H. reflexivity. Qed.

(* how the pixel p, treated after those of [a], got its label *)
Definition joined (seg : list nat) (O a : list point) (p : point) : Prop :=
  exists q, In q a /\ wn p q /\ val 0 seg q = val 0 seg p /\
    forall q', In q' a -> (steps p q <= steps p q')%Z /\ (steps p q' = steps p q -> (pkd m first seg O q <= pkd m first seg O q')%Z).
Definition began (seg : list nat) (O a : list point) (p : point) : Prop :=
  exists k, nth_error O k = Some p /\ val 0 seg p = first + k /\ (forall q, In q a -> ~ wn p q) /\
    forall j o, j < k -> nth_error O j = Some o -> In o a.
Record dinv (done : list point) (seg : list nat) (O : list point) : Prop := {
  d_len : length seg = n * m;
  d_nd : NoDup done;
  d_in : forall p, In p done -> ing p;
  d_dom : forall p, ing p -> (val 0 seg p <> 0 <-> In p done);
  d_lab : forall p, ing p -> val 0 seg p = 0 \/ first <= val 0 seg p < first + length O;
  d_pk : forall k o, nth_error O k = Some o -> In o done /\ val 0 seg o = first + k;
  d_rule : forall a p b, done = a ++ p :: b -> began seg O a p \/ joined seg O a p }.
Definition state (b : blend) (O : list point) : Prop :=
  b_id b = first + length O /\ b_ids b = old_ids ++ seq first (length O) /\ b_orig b = map pos O /\ b_peak b = O.

Lemma dinv_nil : dinv [] (repeat 0 (n * m)) [].
Proof.
  assert (V : forall p, val 0 (repeat 0 (n * m)) p = 0).
  { intro p. unfold SegProofs.val. destruct (nth_in_or_default (pos p) (repeat 0 (n * m)) 0) as [H|H]; [|exact H]. apply repeat_spec in H. exact H. }
  constructor.
  - apply repeat_length.
  - apply NoDup_nil.
  - intros p [].
  - intros p _. rewrite V. split; [intro H; lia|intros []].
  - intros p _. left. apply V.
  - intros k o H. destruct k; discriminate.
  - intros a p b H. destruct a; discriminate.
Qed.
Lemma dinv_peaks done seg O o : dinv done seg O -> In o O -> ing o.
Proof. intros J H. apply In_nth_error in H. destruct H as [k H]. apply (d_in _ _ _ J). apply (d_pk _ _ _ J k o H). Qed.

(* one more pixel: p gets the label l; new says whether it begins a segment *)
Lemma dinv_add done seg O p : dinv done seg O -> ing p -> ~ In p done ->
  forall seg' O', 
  (O' = O /\ (exists l, seg' = upd seg (pos p) l /\ exists q, ing q /\ wn p q /\ val 0 seg q = l /\ l <> 0 /\
      forall q', ing q' -> val 0 seg q' <> 0 -> (steps p q <= steps p q')%Z /\ (steps p q' = steps p q -> (pkd m first seg O q <= pkd m first seg O q')%Z)) \/
   O' = O ++ [p] /\ seg' = upd seg (pos p) (first + length O) /\ forall q, ing q -> wn p q -> val 0 seg q = 0) ->
  dinv (done ++ [p]) seg' O'.
Proof.
  intros J Ip Np seg' O' H.
  assert (X : exists l, seg' = upd seg (pos p) l /\ first <= l < first + length O' /\ exists t, O' = O ++ t).
  { destruct H as [(-> & l & -> & q & Iq & _ & Eq & Nl & _)|(-> & -> & _)].
    - exists l. split; [reflexivity|]. split; [|exists []; symmetry; apply app_nil_r]. destruct (d_lab _ _ _ J q Iq); lia.
    - exists (first + length O). split; [reflexivity|]. split; [rewrite app_length; cbn; lia|exists [p]; reflexivity]. }
  destruct X as (l & El & Rl & t & Et). pose proof (d_len _ _ _ J) as L.
  assert (VS : val 0 seg' p = l) by (rewrite El; apply (val_upd_same n m); auto).
  assert (VO : forall q, ing q -> q <> p -> val 0 seg' q = val 0 seg q) by (intros q Iq N; rewrite El; apply (val_upd_other n m); auto).
  assert (VD : forall q, In q done -> val 0 seg' q = val 0 seg q).
  { intros q Hq. apply VO; [apply (d_in _ _ _ J); exact Hq|]. intros ->. contradiction. }
  assert (PD : forall q, In q done -> pkd m first seg' O' q = pkd m first seg O q).
  { intros q Hq. apply pkd_ext; [apply VD; exact Hq| |exists t; exact Et]. pose proof (d_in _ _ _ J q Hq) as Iq.
    pose proof (proj2 (d_dom _ _ _ J q Iq) Hq). destruct (d_lab _ _ _ J q Iq); lia. }
  constructor.
  - rewrite El, upd_length. exact L.
  - apply NoDup_app_intro; [apply J|apply NoDup_cons; [intros []|apply NoDup_nil]|]. intros x A [<-|[]]. contradiction.
  - intros q Hq. apply in_app_iff in Hq. destruct Hq as [Hq|[<-|[]]]; [apply (d_in _ _ _ J); exact Hq|exact Ip].
  - intros q Iq. rewrite in_app_iff. cbn [In]. destruct (prod_eq_dec_nat q p) as [->|N].
    + rewrite VS. split; [auto|lia].
    + rewrite (VO q Iq N), (d_dom _ _ _ J q Iq). split; [auto|]. intros [A|[A|[]]]; [exact A|congruence].
  - intros q Iq. destruct (prod_eq_dec_nat q p) as [->|N]; [right; lia|]. rewrite (VO q Iq N).
    destruct (d_lab _ _ _ J q Iq) as [A|A]; [left; exact A|right]. rewrite Et, app_length. lia.
  - intros k o Ho. destruct (Nat.lt_ge_cases k (length O)) as [K|K].
    + rewrite Et, nth_error_app1 in Ho by exact K. destruct (d_pk _ _ _ J k o Ho) as [A B]. split; [apply in_app_iff; auto|].
      rewrite VD; assumption.
    + destruct H as [(-> & _)|(-> & E2 & _)]; [apply nth_error_None in K; congruence|].
      rewrite nth_error_app2 in Ho by exact K. destruct (k - length O) as [|j] eqn:EK; [|destruct j; discriminate].
      cbn in Ho. injection Ho as <-. split; [apply in_app_iff; right; left; reflexivity|]. rewrite E2.
      replace k with (length O) by lia. apply (val_upd_same n m); auto.
  - intros a q b E. destruct b as [|x b] using rev_ind.
    + apply app_inj_tail in E. destruct E as [-> ->]. destruct H as [(E1 & l' & E2 & r & Ir & W & Er & Nl & M)|(E1 & E2 & M)].
      * right. exists r. assert (Hr : In r a) by (apply (d_dom _ _ _ J); [exact Ir|lia]). split; [exact Hr|]. split; [exact W|].
        split; [rewrite (VD r Hr), Er, E2; symmetry; apply (val_upd_same n m); auto|]. intros r' Hr'.
        rewrite (PD r Hr), (PD r' Hr'). apply M; [apply (d_in _ _ _ J); exact Hr'|]. apply (d_dom _ _ _ J); [apply (d_in _ _ _ J)|]; exact Hr'.
      * left. exists (length O). split; [rewrite E1, nth_error_app2, Nat.sub_diag by lia; reflexivity|].
        split; [rewrite E2; apply (val_upd_same n m); auto|]. split.
        -- intros r Hr W. pose proof (d_in _ _ _ J r Hr) as Ir. apply (d_dom _ _ _ J r Ir); [exact Hr|]. apply M; assumption.
        -- intros j o Hj Ho. rewrite E1, nth_error_app1 in Ho by exact Hj. apply (d_pk _ _ _ J j o Ho).
    + clear IHb. assert (E' : done = a ++ q :: b /\ p = x).
      { replace (a ++ q :: b ++ [x]) with ((a ++ q :: b) ++ [x]) in E by (rewrite <- app_assoc; reflexivity).
        apply app_inj_tail in E. exact E. }
      destruct E' as [E' _]. assert (HA : forall r, In r a -> In r done) by (intros r Hr; rewrite E'; apply in_app_iff; auto).
      assert (Hq : In q done) by (rewrite E'; apply in_app_iff; right; left; reflexivity).
      destruct (d_rule _ _ _ J a q b E') as [(k & K1 & K2 & K3 & K4)|(r & R1 & R2 & R3 & R4)].
      * left. exists k. assert (KL : k < length O) by (apply nth_error_Some; congruence).
        split; [rewrite Et, nth_error_app1 by exact KL; exact K1|]. split; [rewrite VD by exact Hq; exact K2|]. split; [exact K3|].
        intros j o Hj Ho. rewrite Et, nth_error_app1 in Ho by lia. apply (K4 j o Hj Ho).
      * right. exists r. split; [exact R1|]. split; [exact R2|]. split; [rewrite !VD by auto; exact R3|].
        intros r' Hr'. rewrite !PD by auto. apply R4. exact Hr'.
Qed.

Lemma place_ok b done O ipos p : dinv done (b_seg b) O -> state b O -> ing p -> ~ In p done ->
  length (b_vis b) = n * m -> (forall q, ing q -> val 0 (b_vis b) q <> ipos) ->
  exists b' O', place n m P b ipos (pos p) = Ok b' /\ dinv (done ++ [p]) (b_seg b') O' /\ state b' O' /\
    length (b_vis b') = n * m /\ forall q, ing q -> val 0 (b_vis b') q = ipos \/ val 0 (b_vis b') q = val 0 (b_vis b) q.
Proof.
  intros J (S1 & S2 & S3 & S4) Ip Np LV HV. unfold place. rewrite coords_ok by exact Ip. cbn [obind].
  rewrite (oset_ok n m) by auto. cbn [obind]. rewrite S3.
  destruct (search_start n m ipos first F0 (b_seg b) (d_len _ _ _ J) O) with (p0 := p) (deb := p_deblend P) (vis := upd (b_vis b) (pos p) ipos)
    as (s & E & LS & OLD & FD).
  { intros o Ho. apply (dinv_peaks _ _ _ _ J Ho). }
  { apply (d_lab _ _ _ J). }
  { exact Ip. }
  { rewrite upd_length. exact LV. }
  { apply (val_upd_same n m); auto. }
  { intros q Iq N. rewrite (val_upd_other n m) by auto. apply HV. exact Iq. }
  rewrite E. cbn [obind].
  assert (VV : forall q, ing q -> val 0 (s_vis s) q = ipos \/ val 0 (s_vis s) q = val 0 (b_vis b) q).
  { intros q Iq. destruct (OLD q Iq) as [A|A]; [left; exact A|]. destruct (prod_eq_dec_nat q p) as [->|N].
    - left. rewrite A. apply (val_upd_same n m); auto.
    - right. rewrite A. apply (val_upd_other n m); auto. }
  destruct FD as [[Z0 FD]|[NZ (q & Iq & W & Eq & M)]].
  - rewrite Z0. cbn [Nat.ltb Nat.leb]. rewrite (oset_ok n m) by (first [exact Ip | exact (d_len _ _ _ J)]). cbn [obind]. eexists. exists (O ++ [p]).
    split; [reflexivity|]. cbn [b_vis b_seg b_id b_ids b_orig b_peak]. split; [|split; [|split; [exact LS|exact VV]]].
    + apply (dinv_add done (b_seg b) O p J Ip Np). right. split; [reflexivity|]. split; [rewrite S1; reflexivity|]. exact FD.
    + unfold state. cbn [b_id b_ids b_orig b_peak]. rewrite S1, S2, S4, app_length, map_app. cbn [length map].
      split; [lia|]. split; [|auto]. rewrite Nat.add_1_r, seq_S, app_assoc. reflexivity.
  - destruct (Nat.ltb_spec 0 (s_neib s)); [|lia]. rewrite (oset_ok n m) by (first [exact Ip | exact (d_len _ _ _ J)]). cbn [obind]. eexists. exists O.
    split; [reflexivity|]. cbn [b_vis b_seg b_id b_ids b_orig b_peak]. split; [|split; [|split; [exact LS|exact VV]]].
    + apply (dinv_add done (b_seg b) O p J Ip Np). left. split; [reflexivity|]. exists (s_neib s). split; [reflexivity|].
      exists q. split; [exact Iq|]. split; [exact W|]. split; [exact Eq|]. split; [exact NZ|exact M].
    + unfold state. auto.
Qed.

Context (im : list dbl) (Lim : length im = n * m).
Notation bri p := (above (val Nan im p) (p_detect P)).
(* R: the pixels that remain, from the brightest on *)
Lemma detect_ok : forall R done b O, R <> [] -> NoDup (done ++ R) -> (forall p, In p R -> ing p) ->
  forall sid, (exists pre, sid = rev (map pos (pre ++ R))) ->
  dinv done (b_seg b) O -> state b O -> length (b_vis b) = n * m ->
  (forall q, ing q -> val 0 (b_vis b) q = 0 \/ length R <= val 0 (b_vis b) q) ->
  exists R1 R2 b' O', R = R1 ++ R2 /\ R2 <> [] /\ detect n m P im sid (length R - 1) b = Ok b' /\
    dinv (done ++ R1) (b_seg b') O' /\ state b' O' /\ (forall p, In p R1 -> bri p = true) /\
    (length R2 = 1 \/ exists p t, R2 = p :: t /\ bri p = false).
Proof.
  induction R as [|p R IH]; [congruence|]. intros done b O _ ND HI sid (pre & ES) J ST LV HV.
  assert (Ip : ing p) by (apply HI; left; reflexivity).
  assert (EG : oget sid (length (p :: R) - 1) = Ok (pos p)).
  { apply oget_Ok. cbn [length]. rewrite ES, map_app. cbn [map]. rewrite rev_app_distr. cbn [rev].
    rewrite nth_error_app1 by (rewrite app_length, rev_length, map_length; cbn; lia).
    rewrite nth_error_app2 by (rewrite rev_length, map_length; lia). rewrite rev_length, map_length.
    replace (S (length R) - 1 - length R) with 0 by lia. reflexivity. }
  destruct R as [|p' R'] eqn:ER.
  - exists [], [p], b, O. split; [reflexivity|]. split; [discriminate|]. rewrite app_nil_r. split; [|].
    + cbn [length Nat.sub] in *. cbn [detect]. rewrite EG. cbn [obind]. rewrite (oget_val n m Nan) by auto. cbn [obind].
      destruct (bri p); reflexivity.
    + split; [exact J|]. split; [exact ST|]. split; [intros q []|]. left. reflexivity.
  - rewrite <- ER in *. assert (EL : length (p :: R) - 1 = S (length R - 1)) by (rewrite ER; cbn; lia).
    rewrite EL in *. cbn [detect]. rewrite EG. cbn [obind]. rewrite (oget_val n m Nan) by auto. cbn [obind].
    destruct (bri p) eqn:EB.
    + assert (Np : ~ In p done).
      { apply NoDup_remove_2 in ND. intro H. apply ND. apply in_app_iff. auto. }
      destruct (place_ok b done O (S (length R - 1)) p J ST Ip Np LV) as (b1 & O1 & E1 & J1 & ST1 & LV1 & HV1).
      { intros q Iq. destruct (HV q Iq) as [A|A]; [lia|]. rewrite ER in *. cbn [length] in *. lia. }
      rewrite E1. cbn [obind].
      destruct (IH (done ++ [p]) b1 O1) with (sid := sid) as (R1 & R2 & b' & O' & A1 & A2 & A3 & A4 & A5 & A6 & A7).
      * rewrite ER. discriminate.
      * rewrite <- app_assoc. exact ND.
      * intros q Hq. apply HI. right. exact Hq.
      * exists (pre ++ [p]). rewrite <- app_assoc. exact ES.
      * exact J1.
      * exact ST1.
      * exact LV1.
      * intros q Iq. destruct (HV1 q Iq) as [A|A]; [right; rewrite A; lia|]. rewrite A. destruct (HV q Iq) as [B|B]; [left; exact B|right].
        cbn [length] in B. lia.
      * exists (p :: R1), R2, b', O'. split; [rewrite A1; reflexivity|]. split; [exact A2|]. split; [exact A3|].
        rewrite <- app_assoc in A4. split; [exact A4|]. split; [exact A5|]. split; [|exact A7].
        intros q [<-|Hq]; [exact EB|apply A6; exact Hq].
    + exists [], (p :: R), b, O. split; [reflexivity|]. split; [discriminate|]. split; [reflexivity|]. rewrite app_nil_r.
      split; [exact J|]. split; [exact ST|]. split; [intros q []|]. right. exists p, R. auto.
Qed.

(* ---- 1031-1035 ---- *)
Lemma skip_ok : forall R, R <> [] -> (forall p, In p R -> ing p) -> forall sid, (exists pre, sid = rev (map pos (pre ++ R))) ->
  exists R0 R1, R = R0 ++ R1 /\ R1 <> [] /\ skip im sid (length R - 1) = Ok (length R1 - 1) /\
    (forall p, In p R0 -> finite (val Nan im p) = false) /\ (length R1 = 1 \/ exists p t, R1 = p :: t /\ finite (val Nan im p) = true).
Proof.
  induction R as [|p R IH]; [congruence|]. intros _ HI sid (pre & ES).
  assert (Ip : ing p) by (apply HI; left; reflexivity).
  assert (EG : oget sid (length (p :: R) - 1) = Ok (pos p)).
  { apply oget_Ok. cbn [length]. rewrite ES, map_app. cbn [map]. rewrite rev_app_distr. cbn [rev].
    rewrite nth_error_app1 by (rewrite app_length, rev_length, map_length; cbn; lia).
    rewrite nth_error_app2 by (rewrite rev_length, map_length; lia). rewrite rev_length, map_length.
    replace (S (length R) - 1 - length R) with 0 by lia. reflexivity. }
  destruct (finite (val Nan im p)) eqn:EF.
  - exists [], (p :: R). split; [reflexivity|]. split; [discriminate|]. split; [|split; [intros q []|right; exists p, R; auto]].
    destruct (length (p :: R) - 1) eqn:EL; cbn [skip]; rewrite EG; cbn [obind]; rewrite (oget_val n m Nan) by auto; cbn [obind]; rewrite EF; reflexivity.
  - destruct R as [|p' R'] eqn:ER.
    + exists [], [p]. split; [reflexivity|]. split; [discriminate|]. split; [|split; [intros q []|left; reflexivity]].
      cbn [length Nat.sub] in *. cbn [skip]. rewrite EG. cbn [obind]. rewrite (oget_val n m Nan) by auto. cbn [obind]. rewrite EF. reflexivity.
    + rewrite <- ER in *. assert (EL : length (p :: R) - 1 = S (length R - 1)) by (rewrite ER; cbn; lia).
      destruct IH with (sid := sid) as (R0 & R1 & A1 & A2 & A3 & A4 & A5).
      * rewrite ER. discriminate.
      * intros q Hq. apply HI. right. exact Hq.
      * exists (pre ++ [p]). rewrite <- app_assoc. exact ES.
      * exists (p :: R0), R1. split; [rewrite A1; reflexivity|]. split; [exact A2|]. split; [|split; [|exact A5]].
        -- rewrite EL in *. cbn [skip]. rewrite EG. cbn [obind]. rewrite (oget_val n m Nan) by auto. cbn [obind]. rewrite EF. exact A3.
        -- intros q [<-|Hq]; [exact EF|apply A4; exact Hq].
Qed.
End Detect.
