(* Lemmas on segmentation with deblending, part 5: small segments. *)
From Coq Require Import NArith QArith ZifyBool ZifyNat Permutation Lqa.
From Verif Require Import Base IndexModel IndexProofs VecModel VecProofs VecProofs2 ImageModel ImageSpec ImageProofs
  ImageProofs2 ImageProofs3 ImageProofs4 SegModel SegSpec SegProofs SegProofs2 SegProofs4 OrderModel OrderSpec OrderProofs SdistSpec
  DblendModel DblendSpec DblendProofs DblendProofs2 DblendProofs3 DblendProofs4.
Local Open Scope nat_scope.

Lemma round_trip_unique C o T T' : round_trip C o T -> round_trip C o T' -> Permutation T T'.
Proof.
  intros (r & -> & N & H) (r' & -> & N' & H'). constructor. apply NoDup_Permutation; auto. intro p. rewrite H, H'. reflexivity.
Qed.
Definition occ := count_occ prod_eq_dec_nat.
Lemma round_trip_occ C o T T' p : round_trip C o T -> round_trip C o T' -> occ T p = occ T' p.
Proof. intros A B. apply (Permutation_count_occ prod_eq_dec_nat). exact (round_trip_unique _ _ _ _ A B). Qed.

(* the centre of a segment that takes other pixels *)
Lemma centre_fold f lim T : forall t,
  let t' := fold_left (fun t p => centre lim (f p) p t) T t in
  let lb := filter (fun p => Qle_bool lim (f p)) T in
  t_area t' = t_area t /\ t_flux t' = t_flux t /\
  (t_by t' == t_by t + qsum (fun p => inject_Z (Z.of_nat (fst p)) * f p)%Q lb)%Q /\
  (t_bx t' == t_bx t + qsum (fun p => inject_Z (Z.of_nat (snd p)) * f p)%Q lb)%Q /\ (t_fc t' == t_fc t + qsum f lb)%Q.
Proof.
  induction T as [|p T IH]; intro t; cbv zeta; cbn [fold_left filter].
  - change (qsum f []) with 0%Q. cbn. repeat split; ring.
  - destruct (IH (centre lim (f p) p t)) as (A & B & C & D & E). rewrite A, B, centre_area, centre_flux, C, D, E.
    split; [reflexivity|]. split; [reflexivity|]. unfold centre.
    destruct (Qle_bool lim (f p)); [rewrite !qsum_cons; cbn [t_by t_bx t_fc]; unfold coord|]; repeat split; ring.
Qed.
Lemma tallies_absorb f lim T T' t small : tallies f lim T t -> t_area small = length T' -> (t_flux small == qsum f T')%Q ->
  tallies f lim (T ++ T') (fold_left (fun t p => centre lim (f p) p t) T'
    (Tally (t_area t + t_area small) (t_flux t + t_flux small)%Q (t_by t) (t_bx t) (t_fc t))).
Proof.
  intros (A & B & C & D & E) A' B'. set (t0 := Tally _ _ _ _ _). destruct (centre_fold f lim T' t0) as (A1 & B1 & C1 & D1 & E1).
  unfold tallies. rewrite A1, B1, C1, D1, E1, filter_app, !qsum_app. unfold t0. cbn [t_area t_flux t_by t_bx t_fc].
  rewrite A, A', B, B', C, D, E, app_length. repeat split; ring.
Qed.

Section Merge.
Context (n m : nat) (P : params) (F0 : 0 < p_first P) (im : list dbl) (Lim : length im = n * m).
Notation ing := (ing n m).
Notation pos := (pos m).
Notation val := (val m).
Notation first := (p_first P).
Notation vd := (val Nan im).
Notation nm := (nm m im).
Notation lim := (lim m P im).
Context (raw : list nat) (Lr : length raw = n * m) (O : list point).
Context (HO : forall k o, nth_error O k = Some o -> ing o /\ val 0 raw o = first + k).
Context (HF : forall p, ing p -> val 0 raw p <> 0 -> finite (vd p) = true).
Context (seg1 vis1 : list nat) (ts1 : list tally) (KP : kept n m P im raw O (length O) seg1 vis1 ts1).
Notation K := (length O).

(* the pixels connected to peak j *)
Definition Cj (j : nat) (p : point) : Prop := exists o, nth_error O j = Some o /\ conn (Mb n m (first + j) raw) o p.
Definition small (j : nat) : Prop := exists t, nth_error ts1 j = Some t /\ t_area t < p_min P.
Definition big (j : nat) : Prop := exists t, nth_error ts1 j = Some t /\ p_min P <= t_area t.
Definition beside (j : nat) (q : point) : Prop := ing q /\ exists p, Cj j p /\ adj p q.

Lemma Cj_raw j p : Cj j p -> ing p /\ val 0 raw p = first + j /\ j < K.
Proof.
  intros (o & Eo & C). apply conn_P in C. destruct C as [_ [Ip E]]. split; [exact Ip|]. split; [exact E|]. apply nth_error_Some. congruence.
Qed.
Lemma Cj_peak j o : nth_error O j = Some o -> Cj j o.
Proof. intro Eo. exists o. split; [exact Eo|]. apply conn_refl. exact (HO j o Eo). Qed.
Lemma Cj_other i j p : Cj i p -> Cj j p -> i = j.
Proof. intros A B. apply Cj_raw in A, B. lia. Qed.
Lemma big_small j : j < K -> big j \/ small j.
Proof.
  intro H. destruct (nth_error ts1 j) as [t|] eqn:E; [|apply nth_error_None in E; pose proof (k_ts _ _ _ _ _ _ _ _ _ _ KP); lia].
  destruct (le_lt_dec (p_min P) (t_area t)); [left|right]; exists t; auto.
Qed.
Lemma big_not_small j : big j -> small j -> False.
Proof. intros (t & E & A) (t' & E' & B). assert (t = t') by congruence. subst. lia. Qed.
Lemma big_lt j : big j -> j < K.
Proof. intros (t & E & _). rewrite <- (k_ts _ _ _ _ _ _ _ _ _ _ KP). apply nth_error_Some. congruence. Qed.

Definition isbig (k : nat) : bool := match nth_error ts1 k with Some t => p_min P <=? t_area t | None => false end.
Record minv (k : nat) (seg vis : list nat) (ts : list tally) (eids : list nat) : Prop := {
  m_len : length seg = n * m;
  m_lenv : length vis = n * m;
  m_ts : length ts = K;
  m_eids : eids = filter (fun j => negb (isbig j)) (seq 0 k);
  m_vis : forall p, ing p -> val 0 vis p = 0 \/ exists j, j < k /\ val 0 vis p = first + j;
  m_lab : forall p, ing p -> val 0 seg p = 0 \/ exists j, j < K /\ val 0 seg p = first + j /\ (big j \/ k <= j);
  m_zero : forall p, ing p -> val 0 seg1 p = 0 -> val 0 seg p = 0;
  m_later : forall j, k <= j -> small j -> nth_error ts j = nth_error ts1 j /\ forall p, ing p -> (val 0 seg p = first + j <-> Cj j p);
  m_big : forall j p, big j -> Cj j p -> val 0 seg p = first + j;
  m_conn : forall j o p, big j -> nth_error O j = Some o -> ing p -> val 0 seg p = first + j -> conn (Mb n m (first + j) seg) o p;
  m_small : forall i, i < k -> small i ->
    (forall p, Cj i p -> val 0 seg p = 0) /\ (forall q j, beside i q -> big j -> ~ Cj j q) \/
    exists j o q, big j /\ nth_error O j = Some o /\ (forall p, Cj i p -> val 0 seg p = first + j) /\ beside i q /\ val 0 seg q = first + j /\
      forall q' j' o', beside i q' -> big j' -> nth_error O j' = Some o' -> Cj j' q' -> (dist2 q o <= dist2 q' o')%Z;
  m_tally : forall j o t, big j -> nth_error O j = Some o -> nth_error ts j = Some t ->
    p_min P <= t_area t /\ exists T, tallies nm (lim o) T t /\ (forall p, In p T <-> ing p /\ val 0 seg p = first + j) /\
      forall i oi Ti p, nth_error O i = Some oi -> Cj i p -> val 0 seg p = first + j ->
        round_trip (conn (Mb n m (first + i) raw) oi) oi Ti -> occ T p = occ Ti p }.

Lemma minv_start k : (forall j, j < k -> isbig j = true) -> k <= K -> minv k seg1 (repeat 0 (n * m)) ts1 [].
Proof.
  intros NB HK. pose proof (k_ts _ _ _ _ _ _ _ _ _ _ KP) as TK.
  assert (CS : forall j p, ing p -> j < K -> (val 0 seg1 p = first + j <-> Cj j p)).
  { intros j p Ip Hj. destruct (nth_error O j) as [o|] eqn:Eo; [|apply nth_error_None in Eo; lia].
    rewrite (k_seg _ _ _ _ _ _ _ _ _ _ KP j o Hj Eo p Ip). split; [intro C; exists o; auto|]. intros (o' & Eo' & C). congruence. }
  constructor.
  - apply KP.
  - apply repeat_length.
  - exact TK.
  - assert (G : forall l, (forall j, In j l -> isbig j = true) -> [] = filter (fun j => negb (isbig j)) l).
    { induction l as [|x l IH]; intro H; [reflexivity|]. cbn [filter]. rewrite H by (left; reflexivity). apply IH. intros j Hj. apply H. right. exact Hj. }
    apply G. intros j Hj. apply in_seq in Hj. apply NB. lia.
  - intros p _. left. apply zeros.
  - intros p Ip. destruct (k_lab _ _ _ _ _ _ _ _ _ _ KP p Ip) as [X|(j & Hj & X)]; [left; exact X|right]. exists j. split; [exact Hj|]. split; [exact X|].
    destruct (le_lt_dec k j) as [Y|Y]; [right; exact Y|left]. specialize (NB j Y). unfold isbig in NB. destruct (nth_error ts1 j) as [t|] eqn:E; [|discriminate].
    exists t. split; [exact E|]. apply Nat.leb_le. exact NB.
  - auto.
  - intros j _ (t & E & _). split; [reflexivity|]. intros p Ip. apply CS; [exact Ip|]. rewrite <- TK. apply nth_error_Some. congruence.
  - intros j p B C. apply CS; [apply Cj_raw in C; tauto|apply big_lt; exact B|exact C].
  - intros j o p B Eo Ip V. apply CS in V; [|exact Ip|apply big_lt; exact B]. destruct V as (o' & Eo' & C). assert (o' = o) by congruence. subst o'.
    assert (G : forall q, conn (Mb n m (first + j) raw) o q -> conn (Mb n m (first + j) seg1) o q).
    { intros q H. induction H as [M0|q r H IH A M].
      - apply conn_refl. split; [apply M0|]. apply CS; [apply M0|apply big_lt; exact B|apply Cj_peak; exact Eo].
      - eapply conn_step; [exact IH|exact A|]. split; [apply M|]. apply CS; [apply M|apply big_lt; exact B|]. exists o. split; [exact Eo|].
        eapply conn_step; eassumption. }
    apply G. exact C.
  - intros i Hi (t & E & X). exfalso. specialize (NB i Hi). unfold isbig in NB. rewrite E in NB. apply Nat.leb_le in NB. lia.
  - intros j o t B Eo Et. split; [destruct B as (t' & E' & X); congruence|].
    destruct (k_tally _ _ _ _ _ _ _ _ _ _ KP j o t Eo Et) as (T & RT & TT). exists T. split; [exact TT|]. split.
    + intro p. destruct RT as (r & -> & ND & H). split.
      * intro Hp. assert (C : conn (Mb n m (first + j) raw) o p).
        { destruct Hp as [<-|Hp]; [apply conn_refl; exact (HO j o Eo)|apply H; exact Hp]. }
        assert (Ip : ing p) by (apply conn_P in C; apply C). split; [exact Ip|]. apply CS; [exact Ip|apply big_lt; exact B|]. exists o. auto.
      * intros [Ip V]. apply CS in V; [|exact Ip|apply big_lt; exact B]. destruct V as (o' & Eo' & C). assert (o' = o) by congruence. subst o'.
        destruct (prod_eq_dec_nat o p) as [E|N]; [left; exact E|right]. apply H. split; [exact C|]. destruct C as [|q r' C A M]; [contradiction|]. exists q. auto.
    + intros i oi Ti p Ei C V RTi. pose proof (Cj_raw _ _ C) as (Ip & _). apply CS in V; [|exact Ip|apply big_lt; exact B].
      pose proof (Cj_other _ _ _ C V). subst i. assert (oi = o) by congruence. subst oi. exact (round_trip_occ _ _ _ _ p RT RTi).
Qed.

(* ---- one small segment ---- *)
Section Step.
Context (k : nat) (seg vis : list nat) (ts : list tally) (eids : list nat) (J : minv k seg vis ts eids).
Context (o : point) (Eo : nth_error O k = Some o) (SM : small k).
Notation cur := (first + k).
Definition bigl (l : nat) : bool := match nth_error ts (l - first) with Some t => p_min P <=? t_area t | None => false end.
Definition pk (l : nat) : point := nth (l - first) O (0, 0).
Definition bstep (a : edge) (p : point) : edge :=
  let l := val 0 seg p in
  if l =? 0 then a
  else if l =? cur then Edge (e_ids a ++ [pos p]) (e_neib a) (e_closest a)
  else if bigl l then if closer (dist2 p (pk l)) (e_closest a) then Edge (e_ids a) l (Some (dist2 p (pk l))) else a
  else a.
Lemma border_ok a p : ing p -> border n m cur P (map pos O) ts a (val 0 seg p) p = Ok (bstep a p).
Proof.
  intro Ip. unfold border, bstep. cbv zeta. destruct (Nat.eqb_spec (val 0 seg p) 0) as [Z|Z]; [reflexivity|].
  destruct (Nat.eqb_spec (val 0 seg p) cur) as [C|C]; [reflexivity|].
  destruct (m_lab _ _ _ _ _ J p Ip) as [X|(j & Hj & X & _)]; [contradiction|]. unfold slot, bigl. rewrite X.
  destruct (Nat.ltb_spec (first + j) first); [lia|]. replace (first + j - first) with j by lia. unfold oget at 1.
  destruct (nth_error ts j) as [t|] eqn:Et; [|apply nth_error_None in Et; rewrite (m_ts _ _ _ _ _ J) in Et; lia]. cbn [obind].
  destruct (p_min P <=? t_area t); [|reflexivity]. unfold oget at 1. rewrite nth_error_map.
  destruct (nth_error O j) as [oj|] eqn:Ej; [|apply nth_error_None in Ej; lia]. cbn [option_map obind].
  rewrite coords_ok by (apply (HO j oj Ej)). cbn [obind]. rewrite sq_dist_eq. unfold pk. replace (first + j - first) with j by lia.
  rewrite (nth_error_nth _ _ (0, 0) Ej). destruct (closer (dist2 p oj) (e_closest a)); reflexivity.
Qed.
Definition cand (p : point) : Prop := val 0 seg p <> 0 /\ val 0 seg p <> cur /\ bigl (val 0 seg p) = true.
Definition dd (p : point) : Z := dist2 p (pk (val 0 seg p)).
Definition chosen (T : list point) (a : edge) : Prop :=
  (forall q, In q T -> ~ cand q) /\ e_neib a = 0 /\ e_closest a = None \/
  exists q, In q T /\ cand q /\ e_neib a = val 0 seg q /\ e_closest a = Some (dd q) /\ forall q', In q' T -> cand q' -> (dd q <= dd q')%Z.
Lemma bsteps : forall T done a, chosen done a ->
  let a' := fold_left bstep T a in
  e_ids a' = e_ids a ++ map pos (filter (fun p => val 0 seg p =? cur) T) /\ chosen (done ++ T) a'.
Proof.
  induction T as [|p T IH]; intros done a H; cbv zeta; cbn [fold_left filter map].
  - rewrite !app_nil_r. auto.
  - assert (G : chosen (done ++ [p]) (bstep a p) /\ e_ids (bstep a p) = e_ids a ++ (if val 0 seg p =? cur then [pos p] else [])).
    { unfold bstep. cbv zeta. destruct (Nat.eqb_spec (val 0 seg p) 0) as [Z|Z].
      - destruct (Nat.eqb_spec (val 0 seg p) cur) as [C|C]; [lia|]. rewrite app_nil_r. split; [|reflexivity].
        destruct H as [(H1 & H2)|(q & H1 & H2 & H3 & H4 & H5)].
        + left. split; [|exact H2]. intros q Hq. apply in_app_iff in Hq. destruct Hq as [Hq|[<-|[]]]; [apply H1; exact Hq|]. intros (X & _). contradiction.
        + right. exists q. split; [apply in_app_iff; auto|]. split; [exact H2|]. split; [exact H3|]. split; [exact H4|].
          intros q' Hq' Cq'. apply in_app_iff in Hq'. destruct Hq' as [Hq'|[<-|[]]]; [apply H5; auto|]. destruct Cq' as (X & _). contradiction.
      - destruct (Nat.eqb_spec (val 0 seg p) cur) as [C|C].
        + split; [|reflexivity]. destruct H as [(H1 & H2)|(q & H1 & H2 & H3 & H4 & H5)].
          * left. split; [|exact H2]. intros q Hq. apply in_app_iff in Hq. destruct Hq as [Hq|[<-|[]]]; [apply H1; exact Hq|]. intros (_ & X & _). contradiction.
          * right. exists q. split; [apply in_app_iff; auto|]. split; [exact H2|]. split; [exact H3|]. split; [exact H4|].
            intros q' Hq' Cq'. apply in_app_iff in Hq'. destruct Hq' as [Hq'|[<-|[]]]; [apply H5; auto|]. destruct Cq' as (_ & X & _). contradiction.
        + rewrite app_nil_r. destruct (bigl (val 0 seg p)) eqn:B.
          * assert (CP : cand p) by (split; auto). fold (dd p). destruct (closer (dd p) (e_closest a)) eqn:CL.
            -- split; [|reflexivity]. right. exists p. cbn [e_neib e_closest]. split; [apply in_app_iff; right; left; reflexivity|]. split; [exact CP|].
               split; [reflexivity|]. split; [reflexivity|]. intros q' Hq' Cq'. apply in_app_iff in Hq'. destruct Hq' as [Hq'|[<-|[]]]; [|lia].
               destruct H as [(H1 & _)|(q & H1 & H2 & H3 & H4 & H5)]; [destruct (H1 q' Hq' Cq')|]. rewrite H4 in CL. cbn [closer] in CL.
               pose proof (H5 q' Hq' Cq'). lia.
            -- split; [|reflexivity]. destruct H as [(H1 & _ & H2)|(q & H1 & H2 & H3 & H4 & H5)]; [rewrite H2 in CL; discriminate|].
               right. exists q. split; [apply in_app_iff; auto|]. split; [exact H2|]. split; [exact H3|]. split; [exact H4|].
               intros q' Hq' Cq'. apply in_app_iff in Hq'. destruct Hq' as [Hq'|[<-|[]]]; [apply H5; auto|]. rewrite H4 in CL. cbn [closer] in CL. lia.
          * split; [|reflexivity]. destruct H as [(H1 & H2)|(q & H1 & H2 & H3 & H4 & H5)].
            -- left. split; [|exact H2]. intros q Hq. apply in_app_iff in Hq. destruct Hq as [Hq|[<-|[]]]; [apply H1; exact Hq|]. intros (_ & _ & X). congruence.
            -- right. exists q. split; [apply in_app_iff; auto|]. split; [exact H2|]. split; [exact H3|]. split; [exact H4|].
               intros q' Hq' Cq'. apply in_app_iff in Hq'. destruct Hq' as [Hq'|[<-|[]]]; [apply H5; auto|]. destruct Cq' as (_ & _ & X). congruence. }
    destruct G as [G1 G2]. destruct (IH (done ++ [p]) (bstep a p) G1) as [I1 I2]. cbv zeta in *. rewrite <- app_assoc in I2. cbn [app] in I2.
    split; [|exact I2]. rewrite I1, G2, <- app_assoc. destruct (val 0 seg p =? cur); reflexivity.
Qed.
Lemma paint_ok l : forall T d, length d = n * m -> (forall p, In p T -> ing p) ->
  exists d', ofold (fun d i => oset d i l) (map pos T) d = Ok d' /\ length d' = n * m /\
    (forall p, ing p -> In p T -> val 0 d' p = l) /\ (forall p, ing p -> ~ In p T -> val 0 d' p = val 0 d p).
Proof.
  induction T as [|q T IH]; intros d L HT; cbn [map ofold].
  - exists d. split; [reflexivity|]. split; [exact L|]. split; [intros p _ []|auto].
  - assert (Iq : ing q) by (apply HT; left; reflexivity). rewrite (oset_ok n m) by auto. cbn [obind].
    destruct (IH (upd d (pos q) l)) as (d' & E & L' & A & B).
    { rewrite upd_length. exact L. }
    { intros p Hp. apply HT. right. exact Hp. }
    exists d'. split; [exact E|]. split; [exact L'|]. split.
    + intros p Ip Hp. destruct (in_dec prod_eq_dec_nat p T) as [H|H]; [apply A; auto|]. destruct Hp as [<-|Hp]; [|contradiction].
      rewrite B by auto. apply (val_upd_same n m); auto.
    + intros p Ip N. rewrite B; [|exact Ip|intro H; apply N; right; exact H]. apply (val_upd_other n m); auto. intros ->. apply N. left. reflexivity.
Qed.
Lemma absorb_ok l small t : forall T, (forall p, In p T -> ing p /\ val 0 raw p <> 0) ->
  absorb n m im l small t (map pos T) = Ok (fold_left (fun t p => centre l (nm p) p t) T
    (Tally (t_area t + t_area small) (t_flux t + t_flux small)%Q (t_by t) (t_bx t) (t_fc t))).
Proof.
  unfold absorb. generalize (Tally (t_area t + t_area small) (t_flux t + t_flux small)%Q (t_by t) (t_bx t) (t_fc t)). intros t0 T. revert t0.
  induction T as [|p T IH]; intros t0 HT; cbn [map ofold fold_left]; [reflexivity|].
  destruct (HT p (or_introl eq_refl)) as [Ip Np]. rewrite (value_ok n m im Lim raw HF p Ip Np). cbn [obind]. rewrite coords_ok by exact Ip. cbn [obind].
  apply IH. intros q Hq. apply HT. right. exact Hq.
Qed.
Lemma same_part p : conn (Mb n m cur seg) o p <-> Cj k p.
Proof.
  destruct (m_later _ _ _ _ _ J k (le_n _) SM) as [_ LK]. split.
  - intro C. apply conn_P in C. destruct C as [_ [Ip V]]. apply LK; assumption.
  - intros (o' & Eo' & C). assert (o' = o) by congruence. subst o'. induction C as [M0|q r C IH A M].
    + apply conn_refl. split; [apply M0|]. apply LK; [apply M0|]. apply Cj_peak. exact Eo.
    + eapply conn_step; [exact IH|exact A|]. split; [apply M|]. apply LK; [apply M|]. exists o. split; [exact Eo|]. eapply conn_step; eassumption.
Qed.
Lemma big_later j : j < K -> j <> k -> big j \/ k <= j -> bigl (first + j) = true <-> big j.
Proof.
  intros Hj N H. unfold bigl. replace (first + j - first) with j by lia.
  destruct (nth_error ts j) as [t|] eqn:Et; [|apply nth_error_None in Et; rewrite (m_ts _ _ _ _ _ J) in Et; lia].
  destruct (big_small j Hj) as [B|S].
  - split; [auto|]. intros _. destruct (nth_error O j) as [oj|] eqn:Ej; [|apply nth_error_None in Ej; lia].
    apply Nat.leb_le. apply (m_tally _ _ _ _ _ J j oj t B Ej Et).
  - assert (KJ : k <= j) by (destruct H as [B|H]; [destruct (big_not_small j B S)|exact H]).
    destruct (m_later _ _ _ _ _ J j KJ S) as [E _]. split; [|intro B; destruct (big_not_small j B S)].
    destruct S as (t' & Et' & A). assert (t = t') by congruence. subst t'. intro X. apply Nat.leb_le in X. lia.
Qed.

Lemma merge_ok ids : nth_error ids k = Some cur ->
  exists seg' vis' ts' eids', merge n m P im ids (map pos O) (seg, vis, ts, eids) k = Ok (seg', vis', ts', eids') /\ minv (S k) seg' vis' ts' eids'.
Proof.
  intro Ei. destruct (HO k o Eo) as [Io Ro]. destruct (m_later _ _ _ _ _ J k (le_n _) SM) as [TK LK].
  destruct SM as (tk & Etk & Atk).
  unfold merge. rewrite (proj2 (oget_Ok _ ids k cur) Ei). cbn [obind]. rewrite (proj2 (oget_Ok _ ts k tk)) by congruence. cbn [obind].
  destruct (Nat.leb_spec (p_min P) (t_area tk)); [lia|].
  assert (EG : oget (map pos O) k = Ok (pos o)) by (unfold oget; rewrite nth_error_map, Eo; reflexivity). rewrite EG. cbn [obind].
  rewrite coords_ok by exact Io. cbn [obind].
  destruct (waves_ok n m cur seg (m_len _ _ _ _ _ J) (border n m cur P (map pos O) ts) bstep (fun _ => True))
    with (s0 := o) (vis0 := vis) (a0 := Edge [] 0 None) as (W & vis' & E & LV & OLD & NW & HW).
  { intros a p _ Ip. split; [apply border_ok; exact Ip|exact I]. }
  { exact Io. }
  { apply LK; [exact Io|apply Cj_peak; exact Eo]. }
  { exact I. }
  { apply J. }
  { intros p Ip. destruct (m_vis _ _ _ _ _ J p Ip) as [X|(j & Hj & X)]; lia. }
  rewrite E. cbn [obind].
  destruct (bsteps (o :: W) [] (Edge [] 0 None)) as [EI CH].
  { left. split; [intros q []|auto]. }
  cbv zeta in EI, CH. cbn [app e_ids] in EI, CH. remember (fold_left bstep (o :: W) (Edge [] 0 None)) as e eqn:Ee. clear Ee.
  set (T' := filter (fun p => val 0 seg p =? cur) (o :: W)) in *. rewrite EI.
  assert (IW : forall p, In p (o :: W) -> ing p) by (intros p [<-|Hp]; [exact Io|apply HW in Hp; tauto]).
  assert (BW : forall q, In q W <-> beside k q).
  { intro q. rewrite HW. unfold beside. split; intros (Iq & p & C & A); (split; [exact Iq|]; exists p; split; [apply same_part; exact C|exact A]). }
  assert (IT : forall p, In p T' <-> Cj k p).
  { intro p. unfold T'. rewrite filter_In, Nat.eqb_eq. split.
    - intros [Hp V]. apply LK; [apply IW; exact Hp|exact V].
    - intro C. apply Cj_raw in C as C'. destruct C' as (Ip & _). split; [|apply LK; assumption]. apply same_part in C.
      destruct C as [|q r C A M]; [left; reflexivity|]. right. apply HW. split; [exact Ip|]. exists q. auto. }
  assert (RT : round_trip (conn (Mb n m (first + k) raw) o) o T').
  { unfold T'. cbn [filter]. assert (V0 : val 0 seg o = cur) by (apply LK; [exact Io|apply Cj_peak; exact Eo]). rewrite V0, Nat.eqb_refl.
    eexists. split; [reflexivity|]. split; [apply NoDup_filter; exact NW|].
    assert (CC : forall p, conn (Mb n m (first + k) raw) o p <-> Cj k p).
    { intro p. split; [intro C; exists o; auto|]. intros (o' & Eo' & C). congruence. }
    intro p. rewrite filter_In, BW, Nat.eqb_eq, CC. unfold beside. split.
    - intros ((Ip & q & Cq & A) & V). split; [apply LK; assumption|]. exists q. split; [apply CC; exact Cq|exact A].
    - intros (Cp & q & Cq & A). pose proof (Cj_raw k p Cp) as (Ip & _). split; [|apply LK; assumption]. split; [exact Ip|]. exists q. split; [apply CC; exact Cq|exact A]. }
  assert (ITg : forall p, In p T' -> ing p) by (intros p Hp; apply IT, Cj_raw in Hp; tauto).
  destruct (paint_ok (e_neib e) T' seg (m_len _ _ _ _ _ J) ITg) as (seg' & EP & LP & PA & PB). rewrite EP. cbn [obind].
  assert (SA : forall p, Cj k p -> val 0 seg' p = e_neib e) by (intros p C; apply PA; [apply Cj_raw in C; tauto|apply IT; exact C]).
  assert (SB : forall p, ing p -> ~ Cj k p -> val 0 seg' p = val 0 seg p) by (intros p Ip C; apply PB; [exact Ip|rewrite IT; exact C]).
  assert (DEC : forall p, ing p -> {Cj k p} + {~ Cj k p}).
  { intros p Ip. destruct (in_dec prod_eq_dec_nat p T') as [X|X]; [left|right]; rewrite <- IT; exact X. }
  assert (SKP : forall p l, ing p -> val 0 seg p = l -> l <> cur -> val 0 seg' p = l).
  { intros p l Ip V N. rewrite SB; [exact V|exact Ip|]. intro C. apply LK in C; [congruence|exact Ip]. }
  assert (VIS : forall p, ing p -> val 0 vis' p = 0 \/ exists j, j < S k /\ val 0 vis' p = first + j).
  { intros p Ip. destruct (OLD p Ip) as [X|X]; [right; exists k; split; [lia|exact X]|]. rewrite X.
    destruct (m_vis _ _ _ _ _ J p Ip) as [Y|(j & Hj & Y)]; [left; exact Y|right; exists j; split; [lia|exact Y]]. }
  assert (NBK : ~ big k) by (intro B; apply (big_not_small k B); exists tk; auto).
  assert (EIDS : eids ++ [k] = filter (fun j => negb (isbig j)) (seq 0 (S k))).
  { rewrite seq_S, filter_app, <- (m_eids _ _ _ _ _ J). cbn [plus filter]. unfold isbig. rewrite Etk.
    destruct (Nat.leb_spec (p_min P) (t_area tk)); [lia|]. reflexivity. }
  assert (BIGQ : forall q j, beside k q -> big j -> Cj j q -> In q (o :: W) /\ cand q /\ val 0 seg q = first + j).
  { intros q j Bq Bj Cq. pose proof (m_big _ _ _ _ _ J j q Bj Cq) as V. assert (j <> k) by (intros ->; contradiction).
    split; [right; apply BW; exact Bq|]. split; [|exact V]. unfold cand. rewrite V. split; [lia|]. split; [lia|].
    apply big_later; auto. apply big_lt. exact Bj. }
  assert (PK : forall j oj, nth_error O j = Some oj -> pk (first + j) = oj).
  { intros j oj Ej. unfold pk. replace (first + j - first) with j by lia. apply nth_error_nth. exact Ej. }
  destruct CH as [(N1 & N2 & _)|(q & Q1 & Q2 & Q3 & _ & Q5)].
  - (* erased *)
    rewrite N2 in *. cbn [Nat.eqb]. exists seg', vis', ts, (eids ++ [k]). split; [reflexivity|].
    constructor; auto.
    + apply J.
    + intros p Ip. destruct (DEC p Ip) as [C|C]; [left; apply SA; exact C|]. rewrite (SB p Ip C).
      destruct (m_lab _ _ _ _ _ J p Ip) as [X|(j & Hj & X & Y)]; [left; exact X|right]. exists j. split; [exact Hj|]. split; [exact X|].
      destruct Y as [Y|Y]; [left; exact Y|right]. assert (j <> k); [|lia]. intros ->. apply C. apply LK; assumption.
    + intros p Ip Z. destruct (DEC p Ip) as [C|C]; [apply SA; exact C|]. rewrite (SB p Ip C). apply (m_zero _ _ _ _ _ J); assumption.
    + intros j Hj S. destruct (m_later _ _ _ _ _ J j ltac:(lia) S) as [A B]. split; [exact A|]. intros p Ip.
      destruct (DEC p Ip) as [C|C]; [|rewrite (SB p Ip C); apply B; exact Ip].
      rewrite (SA p C). split; [lia|]. intro C'. pose proof (Cj_other _ _ _ C C'). lia.
    + intros j p B C. apply SKP; [apply Cj_raw in C; tauto|apply (m_big _ _ _ _ _ J); assumption|]. intro X. assert (j = k) by lia. subst. contradiction.
    + intros j oj p B Ej Ip V. assert (NJ : j <> k) by (intros ->; contradiction).
      assert (V' : val 0 seg p = first + j). { destruct (DEC p Ip) as [C|C]; [rewrite (SA p C) in V; lia|rewrite (SB p Ip C) in V; exact V]. }
      eapply conn_mono; [|apply (m_conn _ _ _ _ _ J j oj p B Ej Ip V')]. intros x [Ix Vx]. split; [exact Ix|]. apply SKP; [exact Ix|exact Vx|lia].
    + intros i Hi S. destruct (Nat.eq_dec i k) as [->|NI].
      * left. split; [exact SA|]. intros q j Bq Bj Cq. destruct (BIGQ q j Bq Bj Cq) as (X & Y & _). exact (N1 q X Y).
      * destruct (m_small _ _ _ _ _ J i ltac:(lia) S) as [[A B]|(j & oj & q & B1 & B2 & B3 & B4 & B5 & B6)].
        -- left. split; [|exact B]. intros p C. apply SKP; [apply Cj_raw in C; tauto|apply A; exact C|lia].
        -- right. exists j, oj, q. split; [exact B1|]. split; [exact B2|]. assert (first + j <> cur) by (intro X; assert (j = k) by lia; subst; contradiction).
           split; [intros p C; apply SKP; [apply Cj_raw in C; tauto|apply B3; exact C|assumption]|]. split; [exact B4|].
           split; [apply SKP; [apply B4|exact B5|assumption]|exact B6].
    + intros j oj t B Ej Et. destruct (m_tally _ _ _ _ _ J j oj t B Ej Et) as (A1 & T & A2 & A3 & A4). split; [exact A1|]. exists T. split; [exact A2|].
      assert (NJ : j <> k) by (intros ->; contradiction). split.
      2: { intros i oi Ti p Ei' Cp Vp. apply A4 with (i := i); auto. pose proof (Cj_raw _ _ Cp) as (Ip & _).
           destruct (DEC p Ip) as [C|C]; [rewrite (SA p C) in Vp; lia|rewrite (SB p Ip C) in Vp; exact Vp]. }
      intro p. rewrite A3. split; intros [Ip V]; (split; [exact Ip|]).
      * apply SKP; [exact Ip|exact V|lia].
      * destruct (DEC p Ip) as [C|C]; [rewrite (SA p C) in V; lia|rewrite (SB p Ip C) in V; exact V].
  - (* merged *)
    pose proof (IW q Q1) as Iq. pose proof Q2 as CQ. destruct Q2 as (Z1 & Z2 & Z3).
    destruct (m_lab _ _ _ _ _ J q Iq) as [X|(j & Hj & Vq & HB)]; [contradiction|].
    assert (NJ : j <> k) by (intros ->; contradiction). rewrite Vq in Z3. apply (big_later j Hj NJ HB) in Z3.
    rewrite Q3, Vq in *. destruct (Nat.eqb_spec (first + j) 0); [lia|].
    destruct (nth_error ts j) as [t|] eqn:Et; [|apply nth_error_None in Et; rewrite (m_ts _ _ _ _ _ J) in Et; lia].
    destruct (nth_error O j) as [oj|] eqn:Ej; [|apply nth_error_None in Ej; lia].
    unfold slot. destruct (Nat.ltb_spec (first + j) first); [lia|]. replace (first + j - first) with j by lia.
    rewrite (proj2 (oget_Ok _ ts j t) Et). cbn [obind].
    assert (EGj : oget (map pos O) j = Ok (pos oj)) by (unfold oget; rewrite nth_error_map, Ej; reflexivity). rewrite EGj. cbn [obind].
    destruct (HO j oj Ej) as [Ioj Roj]. rewrite (value_ok n m im Lim raw HF oj Ioj) by lia. cbn [obind]. fold (lim oj).
    rewrite absorb_ok by (intros p Hp; apply IT, Cj_raw in Hp; split; [tauto|lia]). cbn [obind].
    set (t' := fold_left _ T' _). unfold oset. destruct (Nat.ltb_spec j (length ts)) as [_|X]; [|rewrite (m_ts _ _ _ _ _ J) in X; lia]. cbn [obind].
    exists seg', vis', (upd ts j t'), (eids ++ [k]). split; [reflexivity|].
    assert (QW : In q W).
    { destruct Q1 as [<-|Q1]; [|exact Q1]. exfalso.
      assert (V0 : val 0 seg o = cur) by (apply LK; [exact Io|apply Cj_peak; exact Eo]). lia. }
    constructor; auto.
    + rewrite upd_length. apply J.
    + intros p Ip. destruct (DEC p Ip) as [C|C]; [right; exists j; split; [exact Hj|]; split; [apply SA; exact C|left; exact Z3]|]. rewrite (SB p Ip C).
      destruct (m_lab _ _ _ _ _ J p Ip) as [X|(i & Hi & X & Y)]; [left; exact X|right]. exists i. split; [exact Hi|]. split; [exact X|].
      destruct Y as [Y|Y]; [left; exact Y|right]. assert (i <> k); [|lia]. intros ->. apply C. apply LK; assumption.
    + intros p Ip Z. rewrite SB; [apply (m_zero _ _ _ _ _ J); assumption|exact Ip|]. intro C. apply LK in C; [|exact Ip].
      rewrite (m_zero _ _ _ _ _ J p Ip Z) in C. lia.
    + intros i Hi S. destruct (m_later _ _ _ _ _ J i ltac:(lia) S) as [A B].
      assert (NIJ : i <> j) by (intros ->; exact (big_not_small j Z3 S)).
      split; [rewrite nth_error_upd_other by congruence; exact A|]. intros p Ip.
      destruct (DEC p Ip) as [C|C]; [|rewrite (SB p Ip C); apply B; exact Ip].
      rewrite (SA p C). split; [lia|]. intro C'. pose proof (Cj_other _ _ _ C C'). lia.
    + intros i p B C. apply SKP; [apply Cj_raw in C; tauto|apply (m_big _ _ _ _ _ J); assumption|]. intro X. assert (i = k) by lia. subst. contradiction.
    + intros i oi p B Ei' Ip V. assert (NI : i <> k) by (intros ->; contradiction).
      assert (MONO : forall x, conn (Mb n m (first + i) seg) oi x -> conn (Mb n m (first + i) seg') oi x).
      { intros x. apply conn_mono. intros y [Iy Vy]. split; [exact Iy|]. apply SKP; [exact Iy|exact Vy|lia]. }
      destruct (DEC p Ip) as [C|C].
      * rewrite (SA p C) in V. assert (i = j) by lia. subst i. assert (oi = oj) by congruence. subst oi.
        pose proof (proj1 (BW q) QW) as (_ & p' & Cp' & A').
        apply conn_trans with q; [apply MONO; apply (m_conn _ _ _ _ _ J j oj q B Ej Iq Vq)|].
        apply conn_trans with p'.
        { eapply conn_step; [apply conn_refl; split; [exact Iq|apply SKP; [exact Iq|exact Vq|lia]]|apply adj_sym; exact A'|].
          split; [apply Cj_raw in Cp'; tauto|apply SA; exact Cp']. }
        apply conn_mono with (P := Mb n m cur seg).
        { intros x [Ix Vx]. split; [exact Ix|]. apply SA. apply LK; assumption. }
        apply conn_trans with o; [apply conn_sym|]; apply same_part; assumption.
      * apply MONO. apply (m_conn _ _ _ _ _ J i oi p B Ei' Ip). rewrite <- (SB p Ip C). exact V.
    + intros i Hi S. destruct (Nat.eq_dec i k) as [->|NI].
      * right. exists j, oj, q. split; [exact Z3|]. split; [exact Ej|]. split; [exact SA|]. split; [apply BW; exact QW|].
        split; [apply SKP; [exact Iq|exact Vq|lia]|]. intros q' j' o' Bq Bj Ej' Cq. destruct (BIGQ q' j' Bq Bj Cq) as (X & Y & V').
        pose proof (Q5 q' X Y) as D. unfold dd in D. rewrite Vq, V', (PK j oj Ej), (PK j' o' Ej') in D. exact D.
      * destruct (m_small _ _ _ _ _ J i ltac:(lia) S) as [[A B]|(i' & oj' & q' & B1 & B2 & B3 & B4 & B5 & B6)].
        -- left. split; [|exact B]. intros p C. apply SKP; [apply Cj_raw in C; tauto|apply A; exact C|lia].
        -- right. exists i', oj', q'. split; [exact B1|]. split; [exact B2|]. assert (first + i' <> cur) by (intro X; assert (i' = k) by lia; subst; contradiction).
           split; [intros p C; apply SKP; [apply Cj_raw in C; tauto|apply B3; exact C|assumption]|]. split; [exact B4|].
           split; [apply SKP; [apply B4|exact B5|assumption]|exact B6].
    + intros i oi ti B Ei' Eti. destruct (Nat.eq_dec i j) as [->|NIJ].
      * assert (oi = oj) by congruence. subst oi. rewrite nth_error_upd_same in Eti by (rewrite (m_ts _ _ _ _ _ J); exact Hj). injection Eti as <-.
        destruct (m_tally _ _ _ _ _ J j oj t Z3 Ej Et) as (A1 & T & A2 & A3 & A4).
        destruct (k_tally _ _ _ _ _ _ _ _ _ _ KP k o tk Eo Etk) as (Tk & RTk & TTk).
        pose proof (round_trip_unique _ _ _ _ RTk RT) as PM. apply (tallies_perm _ _ _ _ _ PM) in TTk. destruct TTk as (AK & FK & _).
        assert (TT : tallies nm (lim oj) (T ++ T') t') by (apply tallies_absorb; assumption).
        split.
        { destruct TT as [AT _]. destruct A2 as [AT0 _]. rewrite AT, app_length. lia. }
        exists (T ++ T'). split; [exact TT|]. split.
        -- intro p. rewrite in_app_iff, A3, IT. split.
           ++ intros [[Ip V]|C]; [split; [exact Ip|apply SKP; [exact Ip|exact V|lia]]|]. split; [apply Cj_raw in C; tauto|apply SA; exact C].
           ++ intros [Ip V]. destruct (DEC p Ip) as [C|C]; [right; exact C|left]. split; [exact Ip|]. rewrite <- (SB p Ip C). exact V.
        -- intros i oi Ti p Ei2 Cp Vp RTi. unfold occ. rewrite count_occ_app. destruct (in_dec prod_eq_dec_nat p T') as [X|X].
           ++ assert (Y : ~ In p T). { intro Y. apply A3 in Y. destruct Y as [Ip V]. apply IT in X. apply LK in X; [|exact Ip]. lia. }
              apply (count_occ_not_In prod_eq_dec_nat) in Y. rewrite Y. apply IT in X. pose proof (Cj_other _ _ _ X Cp). subst i.
              assert (oi = o) by congruence. subst oi. exact (round_trip_occ _ _ _ _ p RT RTi).
           ++ assert (NC : ~ Cj k p) by (rewrite <- IT; exact X). apply (count_occ_not_In prod_eq_dec_nat) in X. rewrite X, Nat.add_0_r.
              pose proof (Cj_raw _ _ Cp) as (Ip & _). rewrite (SB p Ip NC) in Vp. exact (A4 i oi Ti p Ei2 Cp Vp RTi).
      * rewrite nth_error_upd_other in Eti by congruence.
        destruct (m_tally _ _ _ _ _ J i oi ti B Ei' Eti) as (A1 & T & A2 & A3 & A4). split; [exact A1|]. exists T. split; [exact A2|].
        assert (NI : i <> k) by (intros ->; contradiction). split.
        2: { intros i' oi' Ti p Ei2 Cp Vp. apply A4 with (i := i'); auto. pose proof (Cj_raw _ _ Cp) as (Ip & _).
             destruct (DEC p Ip) as [C|C]; [rewrite (SA p C) in Vp; lia|rewrite (SB p Ip C) in Vp; exact Vp]. }
        intro p. rewrite A3. split; intros [Ip V]; (split; [exact Ip|]).
        -- apply SKP; [exact Ip|exact V|lia].
        -- destruct (DEC p Ip) as [C|C]; [rewrite (SA p C) in V; lia|rewrite (SB p Ip C) in V; exact V].
Qed.
End Step.

Lemma minv_skip k seg vis ts eids : minv k seg vis ts eids -> k < K -> big k -> minv (S k) seg vis ts eids.
Proof.
  intros J HK B. constructor; try apply J.
  - rewrite seq_S, filter_app, <- (m_eids _ _ _ _ _ J). cbn [plus filter]. destruct B as (t & E & A). unfold isbig. rewrite E.
    apply Nat.leb_le in A. rewrite A. cbn [negb]. symmetry. apply app_nil_r.
  - intros p Ip. destruct (m_vis _ _ _ _ _ J p Ip) as [X|(j & Hj & X)]; [left; exact X|right; exists j; split; [lia|exact X]].
  - intros p Ip. destruct (m_lab _ _ _ _ _ J p Ip) as [X|(j & Hj & X & Y)]; [left; exact X|right]. exists j. split; [exact Hj|]. split; [exact X|].
    destruct Y as [Y|Y]; [left; exact Y|]. destruct (Nat.eq_dec j k) as [->|N]; [left; exact B|right; lia].
  - intros j Hj S. apply (m_later _ _ _ _ _ J j); [lia|exact S].
  - intros i Hi S. apply (m_small _ _ _ _ _ J i); [|exact S]. assert (i <> k); [|lia]. intros ->. exact (big_not_small k B S).
Qed.
Lemma merges_ok ids : ids = seq first K ->
  exists seg vis ts eids, ofold (merge n m P im ids (map pos O)) (seq 0 (length ids)) (seg1, repeat 0 (n * m), ts1, []) = Ok (seg, vis, ts, eids) /\
    minv K seg vis ts eids.
Proof.
  intro EI. assert (LI : length ids = K) by (rewrite EI; apply seq_length). rewrite LI.
  assert (G : forall r k seg vis ts eids, k + r = K -> minv k seg vis ts eids ->
    exists seg' vis' ts' eids', ofold (merge n m P im ids (map pos O)) (seq k r) (seg, vis, ts, eids) = Ok (seg', vis', ts', eids') /\ minv K seg' vis' ts' eids').
  { induction r as [|r IH]; intros k seg vis ts eids EK J.
    - exists seg, vis, ts, eids. rewrite Nat.add_0_r in EK. rewrite <- EK. auto.
    - cbn [seq ofold]. destruct (nth_error O k) as [o|] eqn:Eo; [|apply nth_error_None in Eo; lia].
      assert (Eid : nth_error ids k = Some (first + k)).
      { rewrite EI. rewrite (nth_error_nth' _ 0) by (rewrite seq_length; lia). rewrite seq_nth by lia. reflexivity. }
      destruct (big_small k ltac:(lia)) as [B|SK].
      + assert (EM : merge n m P im ids (map pos O) (seg, vis, ts, eids) k = Ok (seg, vis, ts, eids)).
        { unfold merge. rewrite (proj2 (oget_Ok _ ids k _) Eid). cbn [obind].
          destruct (nth_error ts k) as [t|] eqn:Et; [|apply nth_error_None in Et; rewrite (m_ts _ _ _ _ _ J) in Et; lia].
          rewrite (proj2 (oget_Ok _ ts k t) Et). cbn [obind]. destruct (m_tally _ _ _ _ _ J k o t B Eo Et) as (A & _).
          apply Nat.leb_le in A. rewrite A. reflexivity. }
        rewrite EM. cbn [obind]. apply (IH (S k)); [lia|]. apply minv_skip; [exact J|lia|exact B].
      + destruct (merge_ok k seg vis ts eids J o Eo SK ids Eid) as (seg' & vis' & ts' & eids' & E & J'). rewrite E. cbn [obind].
        apply (IH (S k)); [lia|exact J']. }
  apply (G K 0); [lia|]. apply minv_start; [intros j Hj; lia|lia].
Qed.
End Merge.
