(* C94: segmentation with deblending (segment_deblend). *)
From Coq Require Import QArith Permutation Sorted Lqa.
From Verif Require Import Base ImageModel ImageSpec SegModel SegSpec SegProofs SegProofs4 SdistSpec
  DblendModel DblendSpec DblendProofs4 DblendProofs5 DblendProofs6.
Local Open Scope nat_scope.

(* With a new output the function returns, whatever the pixels (NaN and infinities included) and the
   parameters.  The labels are those of segments grown from the peaks, without the pixels that are
   not connected to their peak, and without the small segments. *)
Theorem C94_segments : forall (v : img dbl) (P : params), wf v -> nr v * nc v <> 0 -> 0 < p_first P ->
  exists seg js r raw peaks, segment_deblend v P [] = Ok (seg, r) /\ grown v P raw peaks /\ final v P raw peaks seg js r.
Proof. intros v P W N F. apply deblend_ok; assumption. Qed.
Print Assumptions C94_segments.

Lemma result v P seg r : wf v -> nr v * nc v <> 0 -> 0 < p_first P -> segment_deblend v P [] = Ok (seg, r) ->
  exists js raw peaks, grown v P raw peaks /\ final v P raw peaks seg js r.
Proof.
  intros W N F E. destruct (C94_segments v P W N F) as (seg' & js & r' & raw & peaks & E' & G & FN). rewrite E' in E. injection E as -> ->. exists js, raw, peaks. auto.
Qed.
Lemma steps_swap p q : steps p q = steps q p.
Proof. unfold steps. lia. Qed.
Lemma Forall2_nth {A B} (R : A -> B -> Prop) l l' : Forall2 R l l' -> forall i b, nth_error l' i = Some b -> exists a, nth_error l i = Some a /\ R a b.
Proof.
  induction 1 as [|x y l l' H F IH]; intros [|i] b E; try discriminate; cbn in E.
  - injection E as <-. exists x. auto.
  - destruct (IH i b E) as (a & Ea & R'). exists a. auto.
Qed.
Lemma sorted_nth l : StronglySorted lt l -> forall i j a b, i < j -> nth_error l i = Some a -> nth_error l j = Some b -> a < b.
Proof.
  induction 1 as [|x l S IH F]; intros [|i] [|j] a b H Ea Eb; try lia; try discriminate; cbn in *.
  - injection Ea as <-. rewrite Forall_forall in F. apply F. eapply nth_error_In. exact Eb.
  - exact (IH i j a b ltac:(lia) Ea Eb).
Qed.
Lemma sorted_all : forall K l a, StronglySorted lt l -> (forall j, In j l <-> a <= j < a + K) -> l = seq a K.
Proof.
  induction K as [|K IH]; intros l a S H.
  - destruct l as [|x l]; [reflexivity|]. pose proof (proj1 (H x) (or_introl eq_refl)). lia.
  - destruct l as [|x l]; [pose proof (proj2 (H a) ltac:(lia)) as []|]. inversion S as [|? ? S' F]. subst. rewrite Forall_forall in F.
    assert (x = a).
    { destruct (proj2 (H a) ltac:(lia)) as [E|E]; [exact E|]. pose proof (F a E). pose proof (proj1 (H x) (or_introl eq_refl)). lia. }
    subst x. cbn [seq]. f_equal. apply IH; [exact S'|]. intro j. split.
    + intro Hj. pose proof (F j Hj). pose proof (proj1 (H j) (or_intror Hj)). lia.
    + intro Hj. destruct (proj2 (H j) ltac:(lia)) as [E|E]; [lia|exact E].
Qed.
Lemma map_add_seq a : forall K b, map (fun j => a + j) (seq b K) = seq (a + b) K.
Proof. induction K as [|K IH]; intro b; [reflexivity|]. cbn [seq map]. f_equal. rewrite IH. f_equal. lia. Qed.
Lemma twice_pos o l : 1 <= length (twice o l).
Proof. unfold twice. destruct (Nat.eqb_spec (length l) 1) as [E|E]; [lia|cbn; lia]. Qed.
Lemma all_large v P raw peaks seg js r : p_min P <= 1 -> final v P raw peaks seg js r -> js = seq 0 (length peaks).
Proof.
  intros M FN. destruct (f_large _ _ _ _ _ _ _ FN) as [S H]. apply sorted_all; [exact S|]. intro j. rewrite H. split.
  - intros (o & l & E & _). split; [lia|]. apply nth_error_Some. congruence.
  - intros [_ Hj]. destruct (f_parts _ _ _ _ _ _ _ FN j Hj) as (l & L). destruct (nth_error peaks j) as [o|] eqn:E; [|apply nth_error_None in E; cbn in Hj; lia].
    exists o, l. split; [exact E|]. split; [exact L|]. pose proof (twice_pos o l). lia.
Qed.
Lemma peaks_all v P raw peaks seg r : final v P raw peaks seg (seq 0 (length peaks)) r -> o_peak r = peaks.
Proof.
  intro FN. pose proof (f_peak _ _ _ _ _ _ _ FN) as H. revert H. generalize (o_peak r). intros l H.
  assert (G : forall (ps l : list (nat * nat)) a pre, length pre = a -> peaks = pre ++ ps -> Forall2 (fun j p => nth_error peaks j = Some p) (seq a (length ps)) l -> l = ps).
  { induction ps as [|p ps IH]; intros l' a pre L E F; cbn [length seq] in F; (destruct l' as [|x l']; [|]); try (inversion F; fail); [reflexivity|].
    assert (F' : nth_error peaks a = Some x /\ Forall2 (fun j p => nth_error peaks j = Some p) (seq (S a) (length ps)) l') by (inversion F; auto).
    destruct F' as [F1 F2]. f_equal.
    - rewrite E, nth_error_app2, L, Nat.sub_diag in F1 by lia. cbn in F1. congruence.
    - apply (IH _ (S a) (pre ++ [p])); [rewrite app_length; cbn; lia|rewrite <- app_assoc; exact E|exact F2]. }
  apply (G peaks l 0 []); auto.
Qed.
Lemma label_part v P raw peaks seg js r p l : 0 < p_first P -> grown v P raw peaks -> final v P raw peaks seg js r -> at_ seg p = Some l -> l <> 0 ->
  exists j o, part P raw peaks j p /\ nth_error peaks j = Some o /\ at_ raw p = Some (p_first P + j).
Proof.
  intros F G FN E NZ. destruct (f_island _ _ _ _ _ _ _ FN p l E NZ) as (j & o & Eo & C). exists j, o. split; [exists o; auto|]. split; [exact Eo|].
  apply conn_P in C. apply C.
Qed.

(* The peaks of the segments, when none is asked to be large: exactly the bright pixels that are far
   from every brighter one.  They are listed from the brightest on, with consecutive identifiers. *)
Theorem C94_peaks : forall (v : img dbl) (P : params) seg r, wf v -> nr v * nc v <> 0 -> 0 < p_first P -> p_min P <= 1 ->
  segment_deblend v P [] = Ok (seg, r) ->
  (forall p, In p (o_peak r) <-> peak v P p) /\
  (forall i j p q, i < j -> nth_error (o_peak r) i = Some p -> nth_error (o_peak r) j = Some q -> precedes v p q) /\
  o_id r = seq (p_first P) (length (o_peak r)) /\ o_origin r = map (fun p => fst p * nc v + snd p) (o_peak r) /\
  forall i p, nth_error (o_peak r) i = Some p -> at_ seg p = Some (p_first P + i).
Proof.
  intros v P seg r W N F M E. destruct (result v P seg r W N F E) as (js & raw & peaks & G & FN).
  pose proof (all_large _ _ _ _ _ _ _ M FN) as EJ. subst js. pose proof (peaks_all _ _ _ _ _ _ FN) as EP. rewrite EP.
  split; [apply G|]. split; [apply G|]. split.
  { rewrite (f_id _ _ _ _ _ _ _ FN), map_add_seq, Nat.add_0_r. reflexivity. }
  split; [rewrite (f_origin _ _ _ _ _ _ _ FN), EP; reflexivity|].
  intros i p Ei. assert (Hi : i < length peaks) by (apply nth_error_Some; congruence). apply (f_keep _ _ _ _ _ _ _ FN i p); [apply in_seq; lia|].
  exists p. split; [exact Ei|]. apply conn_refl. apply (g_peak _ _ _ _ G). exact Ei.
Qed.
Print Assumptions C94_peaks.

(* The peaks are at least deblend_threshold steps apart, for any minimum area. *)
Theorem C94_separation : forall (v : img dbl) (P : params) seg r, wf v -> nr v * nc v <> 0 -> 0 < p_first P ->
  segment_deblend v P [] = Ok (seg, r) ->
  forall i j p q, i <> j -> nth_error (o_peak r) i = Some p -> nth_error (o_peak r) j = Some q -> (p_deblend P <= inject_Z (steps p q))%Q.
Proof.
  intros v P seg r W N F E. destruct (result v P seg r W N F E) as (js & raw & peaks & G & FN).
  assert (K : forall i j p q, i < j -> nth_error (o_peak r) i = Some p -> nth_error (o_peak r) j = Some q -> (p_deblend P <= inject_Z (steps p q))%Q).
  { intros i j p q H Ep Eq. destruct (Forall2_nth _ _ _ (f_peak _ _ _ _ _ _ _ FN) i p Ep) as (a & Ea & Pa).
    destruct (Forall2_nth _ _ _ (f_peak _ _ _ _ _ _ _ FN) j q Eq) as (b & Eb & Pb).
    pose proof (sorted_nth js (proj1 (f_large _ _ _ _ _ _ _ FN)) i j a b H Ea Eb) as AB.
    pose proof (g_order _ _ _ _ G a b p q AB Pa Pb) as PR. apply nth_error_In, (g_peaks _ _ _ _ G) in Pa, Pb.
    destruct Pb as [_ Pb]. apply Qnot_lt_le. intro X. apply (Pb p (proj1 Pa) PR). unfold within. rewrite steps_swap. exact X. }
  intros i j p q H Ep Eq. destruct (Nat.lt_total i j) as [X|[X|X]]; [exact (K i j p q X Ep Eq)|contradiction|]. rewrite steps_swap. exact (K j i q p X Eq Ep).
Qed.
Print Assumptions C94_separation.

(* Only finite pixels above the detection threshold have a label. *)
Theorem C94_threshold : forall (v : img dbl) (P : params) seg r, wf v -> nr v * nc v <> 0 -> 0 < p_first P ->
  segment_deblend v P [] = Ok (seg, r) ->
  forall p l, at_ seg p = Some l -> l <> 0 -> exists q, at_ v p = Some (Fin q) /\ (p_detect P <= q)%Q.
Proof.
  intros v P seg r W N F E p l El NZ. destruct (result v P seg r W N F E) as (js & raw & peaks & G & FN).
  destruct (label_part _ _ _ _ _ _ _ p l F G FN El NZ) as (j & o & _ & Eo & Er).
  assert (B : bright v (p_detect P) p). { apply (g_bright _ _ _ _ G). exists j. split; [apply nth_error_Some; congruence|exact Er]. }
  apply B.
Qed.
Print Assumptions C94_threshold.

(* Each segment, after the small ones have been merged, is in one piece and contains its peak.  Each
   label of the image is that of a reported segment. *)
Theorem C94_connected : forall (v : img dbl) (P : params) seg r, wf v -> nr v * nc v <> 0 -> 0 < p_first P ->
  segment_deblend v P [] = Ok (seg, r) ->
  (forall i id o, nth_error (o_id r) i = Some id -> nth_error (o_peak r) i = Some o -> at_ seg o = Some id) /\
  forall p id, at_ seg p = Some id -> id <> 0 ->
    exists i o, nth_error (o_id r) i = Some id /\ nth_error (o_peak r) i = Some o /\ conn (fun q => at_ seg q = Some id) o p.
Proof.
  intros v P seg r W N F E. destruct (result v P seg r W N F E) as (js & raw & peaks & G & FN). split.
  - intros i id o Ei Eo. destruct (Forall2_nth _ _ _ (f_peak _ _ _ _ _ _ _ FN) i o Eo) as (a & Ea & Pa).
    rewrite (f_id _ _ _ _ _ _ _ FN), nth_error_map, Ea in Ei. injection Ei as <-.
    apply (f_keep _ _ _ _ _ _ _ FN); [eapply nth_error_In; exact Ea|]. exists o. split; [exact Pa|]. apply conn_refl. apply (g_peak _ _ _ _ G). exact Pa.
  - intros p id Ep NZ. destruct (f_label _ _ _ _ _ _ _ FN p id Ep) as [X|(j & Hj & ->)]; [contradiction|].
    apply In_nth_error in Hj as Hi. destruct Hi as (i & Ei). exists i. pose proof (f_peak _ _ _ _ _ _ _ FN) as FP.
    assert (L : length js = length (o_peak r)) by (clear -FP; induction FP; cbn; congruence).
    destruct (nth_error (o_peak r) i) as [o|] eqn:Eo; [|apply nth_error_None in Eo; assert (i < length js) by (apply nth_error_Some; congruence); lia].
    exists o. split; [rewrite (f_id _ _ _ _ _ _ _ FN), nth_error_map, Ei; reflexivity|]. split; [reflexivity|].
    destruct (Forall2_nth _ _ _ FP i o Eo) as (a & Ea & Pa). assert (a = j) by congruence. subst a.
    apply (f_conn _ _ _ _ _ _ _ FN j o p); assumption.
Qed.
Print Assumptions C94_connected.

Lemma own_part v P raw peaks seg r j p : 0 < p_first P -> grown v P raw peaks -> final v P raw peaks seg (seq 0 (length peaks)) r ->
  (at_ seg p = Some (p_first P + j) <-> part P raw peaks j p).
Proof.
  intros F G FN. split.
  - intro E. destruct (label_part _ _ _ _ _ _ _ p _ F G FN E ltac:(lia)) as (i & o & Pi & Eo & Er).
    assert (Hi : i < length peaks) by (apply nth_error_Some; congruence).
    pose proof (f_keep _ _ _ _ _ _ _ FN i p ltac:(apply in_seq; lia) Pi) as E'. rewrite E in E'. injection E' as E'. assert (i = j) by lia. subst i. exact Pi.
  - intro H. apply (f_keep _ _ _ _ _ _ _ FN j p); [|exact H]. destruct H as (o & Eo & _). assert (j < length peaks) by (apply nth_error_Some; congruence). apply in_seq. lia.
Qed.
Lemma precedes_num v p q a b : precedes v p q -> at_ v p = Some (Fin a) -> at_ v q = Some (Fin b) -> (b <= a)%Q.
Proof.
  intros (x & y & Ex & Ey & H) Ea Eb. assert (x = Fin a) by congruence. assert (y = Fin b) by congruence. subst x y. unfold below in H. cbn [level] in H.
  destruct H as [[X|(c & d & X & Y & Z)]|(H & _)].
  - lia.
  - injection X as ->. injection Y as ->. apply Qlt_le_weak. exact Z.
  - apply Qnot_lt_le. intro X. apply H. right. exists a, b. auto.
Qed.
(* Without a minimum area, the peak of a segment is its brightest pixel. *)
Theorem C94_highest : forall (v : img dbl) (P : params) seg r, wf v -> nr v * nc v <> 0 -> 0 < p_first P -> p_min P <= 1 ->
  segment_deblend v P [] = Ok (seg, r) ->
  forall i id o p, nth_error (o_id r) i = Some id -> nth_error (o_peak r) i = Some o -> at_ seg p = Some id -> (num v p <= num v o)%Q.
Proof.
  intros v P seg r W N F M E i id o p Ei Eo Ep. destruct (C94_peaks v P seg r W N F M E) as (_ & _ & EI & _).
  pose proof (C94_threshold v P seg r W N F E) as TH. pose proof (proj1 (C94_connected v P seg r W N F E) i id o Ei Eo) as E_o.
  destruct (result v P seg r W N F E) as (js & raw & peaks & G & FN).
  pose proof (all_large _ _ _ _ _ _ _ M FN) as EJ. subst js. pose proof (peaks_all _ _ _ _ _ _ FN) as EP. rewrite EP in *.
  assert (Hi : i < length peaks) by (apply nth_error_Some; congruence).
  assert (id = p_first P + i). { rewrite EI in Ei. rewrite (nth_error_nth' _ 0) in Ei by (rewrite seq_length; exact Hi). rewrite seq_nth in Ei by exact Hi. congruence. }
  subst id. destruct (TH p _ Ep ltac:(lia)) as (a & Ea & _). destruct (TH o _ E_o ltac:(lia)) as (b & Eb & _). unfold num. rewrite Ea, Eb.
  apply (own_part _ _ _ _ _ _ i p F G FN) in Ep. destruct Ep as (o' & Eo' & C). assert (o' = o) by congruence. subst o'. apply conn_P in C. destruct C as [_ C].
  destruct (g_top _ _ _ _ G p i o C Eo) as [->|PR]; [|exact (precedes_num v o p b a PR Eb Ea)]. rewrite Ea in Eb. injection Eb as ->. apply Qle_refl.
Qed.
Print Assumptions C94_highest.

(* Finding: without a minimum area, the area, the flux and the barycentre of a segment of at least two
   pixels count its peak twice. *)
Theorem C94_account : forall (v : img dbl) (P : params) seg r, wf v -> nr v * nc v <> 0 -> 0 < p_first P -> p_min P <= 1 ->
  segment_deblend v P [] = Ok (seg, r) -> length (o_tally r) = length (o_id r) /\
  forall i id o t l, nth_error (o_id r) i = Some id -> nth_error (o_peak r) i = Some o -> nth_error (o_tally r) i = Some t ->
    lists_pixels (fun p => at_ seg p = Some id) l ->
    tallies (num v) (p_flim P * num v o) (if length l =? 1 then l else o :: l) t.
Proof.
  intros v P seg r W N F M E. destruct (C94_peaks v P seg r W N F M E) as (_ & _ & EI & _).
  destruct (result v P seg r W N F E) as (js & raw & peaks & G & FN).
  pose proof (all_large _ _ _ _ _ _ _ M FN) as EJ. subst js. pose proof (peaks_all _ _ _ _ _ _ FN) as EP. rewrite EP in *.
  pose proof (f_tally _ _ _ _ _ _ _ FN) as FT. split.
  { assert (L : forall (js : list nat) ts, length js = length (o_id r) -> Forall2 (fun j t => exists o l, nth_error peaks j = Some o /\ tallies (num v) (p_flim P * num v o)%Q l t /\ p_min P <= t_area t /\
      (forall p, In p l <-> at_ seg p = Some (p_first P + j)) /\
      forall i oi li p, nth_error peaks i = Some oi -> lists_pixels (part P raw peaks i) li -> In p li ->
        at_ seg p = Some (p_first P + j) -> times p l = times p (twice oi li)) js ts -> length ts = length (o_id r)).
    { intros js ts <- X. clear -X. induction X; cbn; congruence. }
    apply (L _ _ ltac:(rewrite EI, !seq_length; reflexivity) FT). }
  intros i id o t l Ei Eo Et [NL HL].
  assert (Hi : i < length peaks) by (apply nth_error_Some; congruence).
  assert (id = p_first P + i). { rewrite EI in Ei. rewrite (nth_error_nth' _ 0) in Ei by (rewrite seq_length; exact Hi). rewrite seq_nth in Ei by exact Hi. congruence. }
  subst id. destruct (Forall2_nth _ _ _ FT i t Et) as (j & Ej & o' & T & Eo' & TT & _ & IT & OT).
  rewrite (nth_error_nth' _ 0) in Ej by (rewrite seq_length; exact Hi). rewrite seq_nth in Ej by exact Hi. injection Ej as <-. cbn [plus] in *.
  assert (o' = o) by congruence. subst o'. fold (twice o l).
  assert (LP : lists_pixels (part P raw peaks i) l) by (split; [exact NL|]; intro p; rewrite HL; apply (own_part _ _ _ _ _ _ i p F G FN)).
  apply (tallies_perm _ _ T); [|exact TT]. apply (Permutation_count_occ point_dec). intro p.
  assert (I2 : In p (twice o l) -> In p l).
  { unfold twice. destruct (length l =? 1); [auto|]. intros [<-|H]; [|exact H]. apply LP. exists o. split; [exact Eo|]. apply conn_refl. apply (g_peak _ _ _ _ G). exact Eo. }
  destruct (in_dec point_dec p l) as [H|H].
  - apply (OT i o l p Eo LP H). apply HL. exact H.
  - assert (~ In p T) by (rewrite IT, <- HL; exact H). assert (~ In p (twice o l)) by auto.
    rewrite (proj1 (count_occ_not_In point_dec T p)), (proj1 (count_occ_not_In point_dec (twice o l) p)) by assumption. reflexivity.
Qed.
Print Assumptions C94_account.

Lemma quot_ok a b : match quot a b with Some x => (x * b == a)%Q /\ ~ (b == 0)%Q | None => (b == 0)%Q end.
Proof.
  unfold quot. destruct (Qeq_bool b 0) eqn:E; [apply Qeq_bool_iff; exact E|]. assert (N : ~ (b == 0)%Q) by (intro H; apply Qeq_bool_iff in H; congruence).
  split; [field; exact N|exact N].
Qed.
(* The barycentre is the mean of the coordinates, weighted by the values, of the pixels of at least
   centroid_flim times the peak, the peak counting twice; it is not a number if these values add up to 0. *)
Theorem C94_barycentre : forall (v : img dbl) (P : params) seg r, wf v -> nr v * nc v <> 0 -> 0 < p_first P -> p_min P <= 1 ->
  segment_deblend v P [] = Ok (seg, r) ->
  forall i id o t l, nth_error (o_id r) i = Some id -> nth_error (o_peak r) i = Some o -> nth_error (o_tally r) i = Some t ->
    lists_pixels (fun p => at_ seg p = Some id) l ->
    let w := filter (fun p => Qle_bool (p_flim P * num v o) (num v p)) (if length l =? 1 then l else o :: l) in
    match mean_y t, mean_x t with
    | Some y, Some x => ~ (qsum (num v) w == 0)%Q /\
        (y * qsum (num v) w == qsum (fun p => inject_Z (Z.of_nat (fst p)) * num v p)%Q w)%Q /\
        (x * qsum (num v) w == qsum (fun p => inject_Z (Z.of_nat (snd p)) * num v p)%Q w)%Q
    | None, None => (qsum (num v) w == 0)%Q
    | _, _ => False
    end.
Proof.
  intros v P seg r W N F M E i id o t l Ei Eo Et L. destruct (C94_account v P seg r W N F M E) as [_ H].
  destruct (H i id o t l Ei Eo Et L) as (_ & _ & Y & X & C). cbv zeta. revert Y X C. generalize (filter (fun p => Qle_bool (p_flim P * num v o) (num v p)) (if length l =? 1 then l else o :: l)).
  intros w Y X C. unfold mean_y, mean_x. pose proof (quot_ok (t_by t) (t_fc t)) as QY. pose proof (quot_ok (t_bx t) (t_fc t)) as QX. 
  destruct (quot (t_by t) (t_fc t)) as [y|], (quot (t_bx t) (t_fc t)) as [x|]; try tauto.
  - destruct QY as [Q1 Q2], QX as [Q3 _]. rewrite <- C. split; [exact Q2|]. split; [exact (Qeq_trans _ _ _ Q1 Y)|exact (Qeq_trans _ _ _ Q3 X)].
  - exact (Qeq_trans _ _ _ (Qeq_sym _ _ C) QY).
Qed.
Print Assumptions C94_barycentre.

(* Finding: the pixel that comes last in the order of brightness is never in a segment, even when it is
   above the threshold. *)
Theorem C94_lowest : forall (v : img dbl) (P : params) seg r, wf v -> nr v * nc v <> 0 -> 0 < p_first P ->
  segment_deblend v P [] = Ok (seg, r) ->
  forall p, inside v p -> (forall q, ~ precedes v p q) -> at_ seg p = Some 0.
Proof.
  intros v P seg r W N F E p Ip NP. destruct (result v P seg r W N F E) as (js & raw & peaks & G & FN).
  destruct (f_size _ _ _ _ _ _ _ FN) as (S1 & S2 & S3).
  assert (X : exists l, at_ seg p = Some l).
  { rewrite (at_val 0 seg p S3), S1, S2. destruct Ip as [A B]. apply Nat.ltb_lt in A, B. rewrite A, B. eexists. reflexivity. }
  destruct X as (l & El). destruct (Nat.eq_dec l 0) as [->|NZ]; [exact El|]. exfalso.
  destruct (label_part _ _ _ _ _ _ _ p l F G FN El NZ) as (j & o & _ & Eo & Er).
  assert (B : bright v (p_detect P) p). { apply (g_bright _ _ _ _ G). exists j. split; [apply nth_error_Some; congruence|exact Er]. }
  destruct B as [_ (q & Hq)]. exact (NP q Hq).
Qed.
Print Assumptions C94_lowest.

Definition im (n m : nat) (l : list Z) : img dbl := Img n m (map (fun z => Fin (inject_Z z)) l).
(* Finding: "area" is not the number of pixels of a segment, and the flux is not their sum. *)
Theorem C94_area_refuted : exists v P seg t o,
  segment_deblend v P [] = Ok (seg, Output [1] [1] [o] [t]) /\ pix seg = [1; 1; 0; 0] /\ t_area t = 3 /\ (t_flux t == 12)%Q /\
  (num v (0, 0)%nat + num v (0, 1)%nat == 7)%Q.
Proof. exists (im 1 4 [2; 5; 0; 0]%Z), (Params 1 5 0 1 0). do 3 eexists. split; [vm_compute; reflexivity|]. repeat split. Qed.
Print Assumptions C94_area_refuted.

(* Finding: the barycentre is pulled towards the peak, which has twice its weight. *)
Theorem C94_barycentre_refuted : exists v P seg t o,
  segment_deblend v P [] = Ok (seg, Output [1] [1] [o] [t]) /\ pix seg = [1; 1; 0; 0] /\
  (exists x, mean_x t = Some x /\ x == 5 # 6)%Q /\
  ((0 * num v (0, 0)%nat + 1 * num v (0, 1)%nat) / (num v (0, 0)%nat + num v (0, 1)%nat) == 5 # 7)%Q.
Proof.
  exists (im 1 4 [2; 5; 0; 0]%Z), (Params 1 5 0 1 0). do 3 eexists. split; [vm_compute; reflexivity|]. split; [reflexivity|].
  split; [eexists; split; [vm_compute; reflexivity|reflexivity]|reflexivity].
Qed.
Print Assumptions C94_barycentre_refuted.

(* Finding: a bright image of one pixel has no segment. *)
Theorem C94_single_refuted : forall q P, 0 < p_first P ->
  segment_deblend (Img 1 1 [Fin q]) P [] = Ok (Img 1 1 [0], Output [] [] [] []).
Proof.
  intros q P F. unfold segment_deblend, check. cbv zeta. destruct (Nat.ltb_spec 0 (p_first P)); [|lia].
  cbn -[Qle_bool]. destruct (Qle_bool (p_detect P) q); reflexivity.
Qed.
Print Assumptions C94_single_refuted.

(* Finding: a bright pixel within reach of a peak, but not connected to it, is left without a label:
   it neither joins the segment nor begins one. *)
Theorem C94_island_refuted : exists v P seg r, segment_deblend v P [] = Ok (seg, r) /\
  pix seg = [1; 0; 0; 0] /\ o_id r = [1] /\ bright v (p_detect P) (0, 2).
Proof.
  exists (im 1 4 [9; 0; 8; 0]%Z), (Params 2 5 0 1 0). do 2 eexists. split; [vm_compute; reflexivity|]. split; [reflexivity|]. split; [reflexivity|].
  split; [exists 8%Q; split; [reflexivity|unfold Qle; cbn; lia]|]. exists (0, 3), (Fin 8), (Fin 0). split; [reflexivity|]. split; [reflexivity|].
  left. right. exists 0%Q, 8%Q. repeat split.
Qed.
Print Assumptions C94_island_refuted.

(* Finding: with a minimum area, the reported peak of a segment need not be its brightest pixel. *)
Theorem C94_highest_refuted : exists v P seg r id o, segment_deblend v P [] = Ok (seg, r) /\
  o_id r = [id] /\ o_peak r = [o] /\ at_ seg (0, 0) = Some id /\ (num v o < num v (0, 0)%nat)%Q.
Proof. exists (im 1 7 [9; 3; 5; 6; 5; 4; 0]%Z), (Params 2 2 4 1 0). do 4 eexists. split; [vm_compute; reflexivity|]. repeat split. Qed.
Print Assumptions C94_highest_refuted.

(* Finding: an output that has been used for one image cannot be used for another: out.id is not
   emptied, and the program stops. *)
Theorem C94_reuse_abort : forall (v : img dbl) (P : params) old, wf v -> nr v * nc v <> 0 -> 0 < p_first P ->
  old <> [] -> ~ In 0 old -> segment_deblend v P old = CheckFail.
Proof. intros v P old W N F NO NZ. apply deblend_reuse; assumption. Qed.
Print Assumptions C94_reuse_abort.

(* Finding: for an empty image the index npos is read. *)
Theorem C94_empty_UB : forall (v : img dbl) (P : params) old, nr v * nc v = 0 -> 0 < p_first P -> segment_deblend v P old = UB.
Proof.
  intros v P old N F. unfold segment_deblend, check. cbv zeta. destruct (Nat.ltb_spec 0 (p_first P)); [|lia]. cbn [obind]. rewrite N. reflexivity.
Qed.
Print Assumptions C94_empty_UB.
(* The identifier 0, which means "no segment", is refused as the first one. *)
Theorem C94_first_id : forall (v : img dbl) (P : params) old, p_first P = 0 -> segment_deblend v P old = CheckFail.
Proof. intros v P old F. unfold segment_deblend. rewrite F. reflexivity. Qed.
Print Assumptions C94_first_id.

(* two peaks, and the pixels between them shared by distance *)
Example deblend_two_peaks : exists r,
  segment_deblend (im 3 4 [9; 3; 1; 1; 4; 3; 5; 3; 1; 1; 3; 8]%Z) (Params 2 (5 # 2) 0 1 0) [] = Ok (Img 3 4 [1; 1; 0; 0; 1; 1; 2; 2; 0; 0; 2; 2], r) /\
  o_id r = [1; 2] /\ o_origin r = [0; 11] /\ map t_area (o_tally r) = [5; 5] /\ map (fun t => Qred (t_flux t)) (o_tally r) = [28%Q; 27%Q].
Proof. eexists. split; [vm_compute; reflexivity|]. repeat split. Qed.
(* the same with a minimum area that neither reaches: both are erased *)
Example deblend_all_small : exists r,
  segment_deblend (im 3 4 [9; 3; 1; 1; 4; 3; 5; 3; 1; 1; 3; 8]%Z) (Params 2 (5 # 2) 6 1 0) [] = Ok (Img 3 4 (repeat 0 12), r) /\ o_id r = [].
Proof. eexists. split; [vm_compute; reflexivity|]. reflexivity. Qed.
(* a small segment given to its large neighbour; identifiers start at 7 *)
Example deblend_merge : exists r,
  segment_deblend (im 1 7 [9; 3; 5; 6; 5; 4; 0]%Z) (Params 2 2 4 7 0) [] = Ok (Img 1 7 [8; 8; 8; 8; 8; 8; 0], r) /\
  o_id r = [8] /\ o_origin r = [3] /\ map t_area (o_tally r) = [8].
Proof. eexists. split; [vm_compute; reflexivity|]. repeat split. Qed.
(* NaN and infinite pixels are passed over *)
Example deblend_nan : exists r,
  segment_deblend (Img 1 6 [Nan; Fin 3; Pinf; Fin 4; Ninf; Fin 0]) (Params 2 1 0 1 0) [] = Ok (Img 1 6 [0; 2; 0; 1; 0; 0], r) /\
  o_peak r = [(0, 3); (0, 1)].
Proof. eexists. split; [vm_compute; reflexivity|]. reflexivity. Qed.
