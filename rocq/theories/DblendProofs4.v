(* Lemmas on segmentation with deblending, part 4: the exploration of segments and the removal of islands. *)
From Coq Require Import NArith QArith ZifyBool ZifyNat Permutation Lqa.
From Verif Require Import Base IndexModel IndexProofs VecModel VecProofs VecProofs2 ImageModel ImageSpec ImageProofs
  ImageProofs2 ImageProofs3 ImageProofs4 SegModel SegSpec SegProofs SegProofs2 SegProofs4 OrderModel OrderSpec OrderProofs SdistSpec
  DblendModel DblendSpec DblendProofs DblendProofs2 DblendProofs3.
Local Open Scope nat_scope.

(* ---- sums ---- *)
Lemma qsum_cons {A} (f : A -> Q) x l : qsum f (x :: l) = (f x + qsum f l)%Q.
Proof. reflexivity. Qed.
Lemma qsum_app {A} (f : A -> Q) l1 l2 : (qsum f (l1 ++ l2) == qsum f l1 + qsum f l2)%Q.
Proof.
  induction l1 as [|x l1 IH]; cbn [app].
  - change (qsum f []) with 0%Q. ring.
  - rewrite !qsum_cons, IH. ring.
Qed.
Lemma qsum_perm {A} (f : A -> Q) l1 l2 : Permutation l1 l2 -> (qsum f l1 == qsum f l2)%Q.
Proof.
  induction 1; rewrite ?qsum_cons.
  - reflexivity.
  - rewrite IHPermutation. reflexivity.
  - ring.
  - etransitivity; eassumption.
Qed.
Lemma filter_perm {A} (b : A -> bool) l1 l2 : Permutation l1 l2 -> Permutation (filter b l1) (filter b l2).
Proof.
  induction 1; cbn [filter].
  - constructor.
  - destruct (b x); [constructor|]; assumption.
  - destruct (b x), (b y); try reflexivity. constructor.
  - etransitivity; eassumption.
Qed.
Lemma tallies_perm f lim l1 l2 t : Permutation l1 l2 -> tallies f lim l1 t -> tallies f lim l2 t.
Proof.
  unfold tallies. intros H (A & B & C & D & E). pose proof (filter_perm (fun p => Qle_bool lim (f p)) _ _ H) as G.
  rewrite <- (Permutation_length H), <- (qsum_perm _ _ _ H), <- !(qsum_perm _ _ _ G). auto.
Qed.
Lemma tallies_nil f lim : tallies f lim [] (Tally 0 0 0 0 0).
Proof. unfold tallies. cbn. repeat split; reflexivity. Qed.
Lemma centre_area lim v p t : t_area (centre lim v p t) = t_area t.
Proof. unfold centre. destruct (Qle_bool lim v); reflexivity. Qed.
Lemma centre_flux lim v p t : t_flux (centre lim v p t) = t_flux t.
Proof. unfold centre. destruct (Qle_bool lim v); reflexivity. Qed.
Lemma tallies_cons f lim l t p : tallies f lim l t -> tallies f lim (p :: l) (account lim (f p) p t).
Proof.
  unfold tallies, account. intros (A & B & C & D & E). rewrite centre_area, centre_flux. cbn [t_area t_flux length].
  split; [congruence|]. split; [rewrite qsum_cons, B; ring|]. cbn [filter]. unfold centre.
  destruct (Qle_bool lim (f p)); cbn [t_by t_bx t_fc].
  - rewrite !qsum_cons, C, D, E. unfold coord. repeat split; ring.
  - auto.
Qed.
Lemma tallies_fold f lim T : forall l t, tallies f lim l t ->
  tallies f lim (rev T ++ l) (fold_left (fun t p => account lim (f p) p t) T t).
Proof.
  induction T as [|p T IH]; intros l t H; [exact H|]. cbn [rev fold_left]. rewrite <- app_assoc. apply IH. apply tallies_cons. exact H.
Qed.
Lemma tallies_of f lim T : tallies f lim T (fold_left (fun t p => account lim (f p) p t) T (Tally 0 0 0 0 0)).
Proof.
  apply (tallies_perm f lim (rev T ++ [])).
  - rewrite app_nil_r. symmetry. apply Permutation_rev.
  - apply tallies_fold, tallies_nil.
Qed.

(* ---- the path of the exploration ---- *)
(* the pixels listed by the exploration from o of the connected part C *)
Definition round_trip (C : point -> Prop) (o : point) (T : list point) : Prop :=
  exists rest, T = o :: rest /\ NoDup rest /\ forall p, In p rest <-> C p /\ exists q, C q /\ adj q p.
Lemma round_trip_perm (B : point -> Prop) o T l : B o -> round_trip (conn B o) o T -> lists_pixels (conn B o) l -> Permutation T (twice o l).
Proof.
  intros B0 (rest & -> & ND & HR) (NL & HL). assert (H0 : In o l) by (apply HL, conn_refl; exact B0). unfold twice.
  destruct (Nat.eqb_spec (length l) 1) as [E|E].
  - destruct l as [|a [|b l]]; try (cbn in E; lia). destruct H0 as [->|[]]. destruct rest as [|p rest]; [reflexivity|]. exfalso.
    destruct (proj1 (HR p) (or_introl eq_refl)) as (Cp & q & Cq & A). apply HL in Cp, Cq.
    destruct Cp as [<-|[]], Cq as [<-|[]]. exact (adj_neq _ _ A eq_refl).
  - constructor. apply NoDup_Permutation; auto. intros p. rewrite HR, HL. split; [tauto|]. intros Cp. split; [exact Cp|].
    assert (LAST : forall a b, conn B a b -> a <> b -> exists q, conn B a q /\ adj q b).
    { intros a b H N. destruct H as [|q r H A Pr]; [contradiction|]. exists q. auto. }
    destruct (prod_eq_dec_nat o p) as [<-|N]; [|apply LAST; assumption].
    assert (exists r, In r l /\ r <> o).
    { destruct l as [|a [|b l]]; [destruct H0|cbn in E; lia|].
      destruct (prod_eq_dec_nat a o) as [->|Na]; [|exists a; split; [left; reflexivity|exact Na]].
      exists b. split; [right; left; reflexivity|]. intros ->. inversion NL as [|? ? N1 _]. apply N1. left. reflexivity. }
    destruct H as (r & Hr & Nr). apply HL in Hr. destruct (LAST r o (conn_sym _ _ _ Hr) Nr) as (q & Cq & A).
    exists q. split; [|exact A]. eapply conn_trans; eauto.
Qed.

Section Waves.
Context (n m : nat).
Notation ing := (ing n m).
Notation pos := (pos m).
Notation val := (val m).
Context {A : Type} (cur : nat) (lab : list nat) (Ll : length lab = n * m) (act : A -> nat -> point -> outcome A).
Context (f : A -> point -> A) (R : A -> Prop).
Context (HA : forall a p, R a -> ing p -> act a (val 0 lab p) p = Ok (f a p) /\ R (f a p)).
Definition Mb (p : point) : Prop := ing p /\ val 0 lab p = cur.
Notation step := (wstep n m cur lab act).

(* it always ends *)
Lemma wsteps_total : forall pts a vis next, R a -> length vis = n * m -> (forall p, In p pts -> ing p) -> (forall p, In p next -> ing p) ->
  exists a' vis' next', ofold step pts (a, (vis, next)) = Ok (a', (vis', next')) /\ R a' /\ length vis' = n * m /\
    (forall p, In p next' -> ing p) /\ unv cur vis' + length next' = unv cur vis + length next.
Proof.
  induction pts as [|p pts IH]; intros a vis next Ra L HP HN; [exists a, vis, next; auto|].
  assert (Ip : ing p) by (apply HP; left; reflexivity).
  cbn [ofold]. unfold wstep at 1. change (fst p * m + snd p) with (pos p). rewrite (oget_val n m 0) by auto. cbn [obind].
  destruct (HA a p Ra Ip) as [E1 R1]. rewrite E1. cbn [obind].
  assert (HP' : forall q, In q pts -> ing q) by (intros q Hq; apply HP; right; exact Hq).
  destruct (val 0 lab p =? cur).
  - destruct (explore_ok n m cur vis next p L Ip) as (vis1 & new & E2 & L2 & _ & U2 & HN2 & _). rewrite E2. cbn [obind].
    destruct (IH (f a p) vis1 (next ++ new) R1 L2 HP') as (a' & vis' & next' & E & Ra' & L' & HN' & U').
    { intros q Hq. apply in_app_iff in Hq. destruct Hq as [Hq|Hq]; [apply HN; exact Hq|apply HN2 in Hq; tauto]. }
    exists a', vis', next'. split; [exact E|]. split; [exact Ra'|]. split; [exact L'|]. split; [exact HN'|].
    rewrite app_length in U'. lia.
  - cbn [obind]. apply IH; assumption.
Qed.
Lemma wloop_total : forall fuel a vis pts, R a -> length vis = n * m -> (forall p, In p pts -> ing p) -> unv cur vis + 1 <= fuel ->
  exists a' vis', wloop n m cur lab act fuel a vis pts = Ok (a', vis') /\ R a' /\ length vis' = n * m.
Proof.
  induction fuel as [|fuel IH]; intros a vis pts Ra L HP HF; [lia|]. cbn [wloop]. destruct pts as [|p pts]; [exists a, vis; auto|].
  destruct (wsteps_total (p :: pts) a vis [] Ra L HP ltac:(intros q [])) as (a1 & vis1 & next1 & E1 & R1 & L1 & HN1 & U1).
  rewrite E1. cbn [obind]. destruct next1 as [|q t] eqn:EN.
  - exists a1, vis1. split; [destruct fuel; reflexivity|auto].
  - rewrite <- EN in *. apply IH; auto. rewrite EN in U1. cbn [length] in U1. lia.
Qed.

(* what it goes through when no pixel is marked *)
Section Seed.
Context (s0 : point) (I0 : ing s0) (M0 : val 0 lab s0 = cur) (vis0 : list nat) (a0 : A).
Record winv (rest todo next : list point) (a : A) (vis : list nat) : Prop := {
  w_len : length vis = n * m;
  w_nd : NoDup (rest ++ todo ++ next);
  w_in : forall p, In p (rest ++ todo ++ next) -> ing p /\ val 0 vis p = cur /\ exists q, conn Mb s0 q /\ adj q p;
  w_all : forall p, ing p -> val 0 vis p = cur -> In p (rest ++ todo ++ next);
  w_cl : forall p q, In p (s0 :: rest) -> Mb p -> ing q -> adj p q -> val 0 vis q = cur;
  w_old : forall p, ing p -> val 0 vis p = cur \/ val 0 vis p = val 0 vis0 p;
  w_acc : a = fold_left f (s0 :: rest) a0;
  w_R : R a }.
Lemma wstep_ok rest p todo next a vis : winv rest (p :: todo) next a vis ->
  exists a' vis' next', step (a, (vis, next)) p = Ok (a', (vis', next')) /\ winv (rest ++ [p]) todo next' a' vis' /\
    unv cur vis' + length next' = unv cur vis + length next.
Proof.
  intros [J1 J2 J3 J4 J5 J6 J7 J8]. destruct (J3 p) as (Ip & Vp & q0 & Cq0 & Aq0).
  { apply in_app_iff. right. left. reflexivity. }
  unfold wstep. change (fst p * m + snd p) with (pos p). rewrite (oget_val n m 0) by auto. cbn [obind].
  destruct (HA a p J8 Ip) as [E1 R1]. rewrite E1. cbn [obind].
  assert (ACC : f a p = fold_left f (s0 :: rest ++ [p]) a0).
  { rewrite J7. change (s0 :: rest ++ [p]) with ((s0 :: rest) ++ [p]). rewrite fold_left_app. reflexivity. }
  destruct (Nat.eqb_spec (val 0 lab p) cur) as [E|E].
  - destruct (explore_ok n m cur vis next p J1 Ip) as (vis' & new & E2 & L2 & N2 & U2 & HN & VV & OLD). rewrite E2. cbn [obind].
    exists (f a p), vis', (next ++ new). split; [reflexivity|]. split; [|rewrite app_length; lia].
    assert (CP : conn Mb s0 p) by (eapply conn_step; [exact Cq0|exact Aq0|split; assumption]).
    constructor; auto.
    + replace ((rest ++ [p]) ++ todo ++ next ++ new) with ((rest ++ (p :: todo) ++ next) ++ new)
        by (repeat (rewrite <- app_assoc; cbn [app]); reflexivity).
      apply NoDup_app_intro; [exact J2|exact N2|]. intros q H1 H2. apply HN in H2. apply J3 in H1. tauto.
    + intros q Hq. assert (Hq' : In q (rest ++ (p :: todo) ++ next) \/ In q new).
      { rewrite !in_app_iff in *. cbn [In] in *. tauto. }
      destruct Hq' as [H|H].
      * apply J3 in H. destruct H as (Iq & Vq & W). split; [exact Iq|]. split; [apply VV; auto|exact W].
      * apply HN in H. destruct H as (Iq & Aq & _). split; [exact Iq|]. split; [apply VV; auto|]. exists p. auto.
    + intros q Iq Vq. rewrite !in_app_iff. cbn [In]. destruct (Nat.eq_dec (val 0 vis q) cur) as [V|V].
      * pose proof (J4 q Iq V) as H. rewrite !in_app_iff in H. cbn [In] in H. tauto.
      * right. right. right. apply HN. split; [exact Iq|]. split; [|exact V]. apply VV in Vq; tauto.
    + intros q r Hq Mq Ir Aq. apply VV; [exact Ir|]. destruct Hq as [Hq|Hq].
      * right. apply (J5 q r); auto. left. exact Hq.
      * apply in_app_iff in Hq. destruct Hq as [Hq|[<-|[]]]; [|left; exact Aq]. right. apply (J5 q r); auto. right. exact Hq.
    + intros q Iq. destruct (OLD q Iq) as [X|X]; [left; exact X|rewrite X; apply J6; exact Iq].
  - exists (f a p), vis, next. split; [reflexivity|]. split; [|reflexivity].
    assert (EQ : (rest ++ [p]) ++ todo ++ next = rest ++ (p :: todo) ++ next) by (rewrite <- app_assoc; reflexivity).
    constructor; rewrite ?EQ; auto. intros q r Hq Mq Ir Aq. destruct Hq as [Hq|Hq]; [apply (J5 q r); auto; left; exact Hq|].
    apply in_app_iff in Hq. destruct Hq as [Hq|[<-|[]]]; [apply (J5 q r); auto; right; exact Hq|]. destruct Mq. contradiction.
Qed.
Lemma wsteps_ok : forall todo rest next a vis, winv rest todo next a vis ->
  exists a' vis' next', ofold step todo (a, (vis, next)) = Ok (a', (vis', next')) /\ winv (rest ++ todo) [] next' a' vis' /\
    unv cur vis' + length next' = unv cur vis + length next.
Proof.
  induction todo as [|p todo IH]; intros rest next a vis J.
  - exists a, vis, next. rewrite app_nil_r. auto.
  - destruct (wstep_ok rest p todo next a vis J) as (a1 & vis1 & next1 & E1 & J1 & U1). cbn [ofold]. rewrite E1. cbn [obind].
    destruct (IH _ _ _ _ J1) as (a' & vis' & next' & E' & J' & U'). exists a', vis', next'. rewrite <- app_assoc in J'.
    split; [exact E'|]. split; [exact J'|]. lia.
Qed.
Lemma wloop_ok : forall fuel rest a vis pts, winv rest pts [] a vis -> unv cur vis + 1 <= fuel ->
  exists rest' a' vis', wloop n m cur lab act fuel a vis pts = Ok (a', vis') /\ winv rest' [] [] a' vis'.
Proof.
  induction fuel as [|fuel IH]; intros rest a vis pts J F; [lia|]. cbn [wloop].
  destruct pts as [|p todo] eqn:E; [exists rest, a, vis; auto|]. rewrite <- E in *.
  destruct (wsteps_ok pts rest [] a vis J) as (a1 & vis1 & next1 & E1 & J1 & U1). cbn [length] in U1. rewrite E1. cbn [obind].
  assert (J2 : winv (rest ++ pts) next1 [] a1 vis1).
  { destruct J1 as [K1 K2 K3 K4 K5 K6 K7 K8]. cbn [app] in *. constructor; rewrite ?app_nil_r; auto. }
  destruct next1 as [|q t] eqn:EN.
  - exists (rest ++ pts), a1, vis1. split; [destruct fuel; reflexivity|exact J2].
  - rewrite <- EN in *. apply (IH (rest ++ pts)); [exact J2|]. rewrite EN in U1. cbn [length] in U1. lia.
Qed.
Lemma waves_ok : R a0 -> length vis0 = n * m -> (forall p, ing p -> val 0 vis0 p <> cur) ->
  exists W vis', wloop n m cur lab act (n * m + 2) a0 vis0 [s0] = Ok (fold_left f (s0 :: W) a0, vis') /\ length vis' = n * m /\
    (forall p, ing p -> val 0 vis' p = cur \/ val 0 vis' p = val 0 vis0 p) /\ NoDup W /\
    forall p, In p W <-> ing p /\ exists q, conn Mb s0 q /\ adj q p.
Proof.
  intros R0 L0 V0. replace (n * m + 2) with (S (n * m + 1)) by lia. cbn [wloop ofold]. unfold wstep at 1.
  change (fst s0 * m + snd s0) with (pos s0). rewrite (oget_val n m 0) by auto. cbn [obind].
  destruct (HA a0 s0 R0 I0) as [E1 R1]. rewrite E1. cbn [obind]. rewrite M0, Nat.eqb_refl.
  destruct (explore_ok n m cur vis0 [] s0 L0 I0) as (vis1 & new & E2 & L2 & N2 & U2 & HN & VV & OLD). rewrite E2. cbn [obind app].
  destruct (wloop_ok (n * m + 1) [] (f a0 s0) vis1 new) as (W & a' & vis' & E & J).
  - constructor; cbn [app]; rewrite ?app_nil_r; auto.
    + intros p Hp. apply HN in Hp. destruct Hp as (Ip & Ap & _). split; [exact Ip|]. split; [apply VV; auto|]. exists s0.
      split; [apply conn_refl; split; assumption|exact Ap].
    + intros p Ip Vp. apply HN. split; [exact Ip|]. split; [|apply V0; exact Ip]. apply VV in Vp; [|exact Ip].
      destruct Vp as [X|X]; [exact X|]. destruct (V0 p Ip X).
    + intros p q [<-|[]] _ Iq Aq. apply VV; auto.
  - pose proof (unv_le cur vis1). lia.
  - destruct J as [K1 K2 K3 K4 K5 K6 K7 K8]. cbn [app] in *. rewrite app_nil_r in *. exists W, vis'.
    split; [rewrite E, K7; reflexivity|]. split; [exact K1|]. split; [exact K6|]. split; [exact K2|].
    assert (CM : forall q, conn Mb s0 q -> In q (s0 :: W)).
    { intros q H. induction H as [|q r H IH Aq Mr]; [left; reflexivity|]. right. apply K4; [apply Mr|].
      apply (K5 q r); auto; [|apply Mr]. apply conn_P in H. tauto. }
    intros p. split.
    + intro Hp. destruct (K3 p Hp) as (Ip & _ & X). auto.
    + intros (Ip & q & Cq & Aq). apply K4; [exact Ip|]. apply (K5 q p); auto. apply conn_P in Cq. tauto.
Qed.
End Seed.
End Waves.

(* ---- islands ---- *)
Section Islands.
Context (n m : nat) (P : params) (F0 : 0 < p_first P) (im : list dbl) (Lim : length im = n * m).
Notation ing := (ing n m).
Notation pos := (pos m).
Notation val := (val m).
Notation first := (p_first P).
Notation vd := (val Nan im).
Definition nm (p : point) : Q := match vd p with Fin q => q | _ => 0%Q end.
Context (raw : list nat) (Lr : length raw = n * m) (O : list point).
Context (HO : forall k o, nth_error O k = Some o -> ing o /\ val 0 raw o = first + k).
Context (HF : forall p, ing p -> val 0 raw p <> 0 -> finite (vd p) = true).
Notation comp c o := (conn (Mb n m c raw) o).
Definition lim (o : point) : Q := (p_flim P * nm o)%Q.

Lemma value_ok p : ing p -> val 0 raw p <> 0 -> value im (pos p) = Ok (nm p).
Proof.
  intros Ip N. unfold value. rewrite (oget_val n m Nan) by auto. cbn [obind]. specialize (HF p Ip N). unfold nm.
  destruct (vd p); try discriminate. reflexivity.
Qed.
Definition gstep (cur : nat) (l : Q) (a : list nat * tally) (p : point) : list nat * tally :=
  if val 0 raw p =? cur then (upd (fst a) (pos p) cur, account l (nm p) p (snd a)) else a.
Lemma gather_ok cur l a p : cur <> 0 -> length (fst a) = n * m -> ing p ->
  gather m cur im l a (val 0 raw p) p = Ok (gstep cur l a p) /\ length (fst (gstep cur l a p)) = n * m.
Proof.
  intros N L Ip. unfold gather, gstep. destruct (Nat.eqb_spec (val 0 raw p) cur) as [E|E]; [|auto].
  destruct a as [seg t]. cbn [fst snd] in *. change (fst p * m + snd p) with (pos p). rewrite (oset_ok n m) by auto. cbn [obind].
  rewrite value_ok by (auto; congruence). cbn [obind]. rewrite upd_length. auto.
Qed.
Lemma gsteps cur l : forall T a, length (fst a) = n * m -> (forall p, In p T -> ing p) ->
  let a' := fold_left (gstep cur l) T a in
  length (fst a') = n * m /\
  snd a' = fold_left (fun t p => account l (nm p) p t) (filter (fun p => val 0 raw p =? cur) T) (snd a) /\
  (forall p, ing p -> In p T /\ val 0 raw p = cur -> val 0 (fst a') p = cur) /\
  (forall p, ing p -> ~ (In p T /\ val 0 raw p = cur) -> val 0 (fst a') p = val 0 (fst a) p).
Proof.
  induction T as [|q T IH]; intros a L HT; cbn [fold_left filter].
  - split; [exact L|]. split; [reflexivity|]. split; [intros p _ [[] _]|auto].
  - assert (Iq : ing q) by (apply HT; left; reflexivity).
    assert (HT' : forall p, In p T -> ing p) by (intros p Hp; apply HT; right; exact Hp).
    destruct (IH (gstep cur l a q)) as (B1 & B2 & B3 & B4); [|exact HT'|].
    { unfold gstep. destruct (val 0 raw q =? cur); [cbn [fst]; rewrite upd_length|]; exact L. }
    split; [exact B1|]. remember (gstep cur l a q) as a1 eqn:E1. unfold gstep in E1.
    destruct (Nat.eqb_spec (val 0 raw q) cur) as [E|E]; subst a1; cbn [fst snd fold_left] in *.
    + split; [exact B2|]. split.
      * intros p Ip [[<-|Hp] Ep]; [|apply B3; auto]. destruct (in_dec prod_eq_dec_nat q T) as [H|H]; [apply B3; auto|].
        rewrite B4 by (auto; tauto). apply (val_upd_same n m); auto.
      * intros p Ip N. rewrite B4; [|exact Ip|intros [X Y]; apply N; split; [right; exact X|exact Y]].
        apply (val_upd_other n m); auto. intros ->. apply N. split; [left; reflexivity|exact E].
    + split; [exact B2|]. split.
      * intros p Ip [[<-|Hp] Ep]; [contradiction|apply B3; auto].
      * intros p Ip N. apply B4; [exact Ip|]. intros [X Y]. apply N. split; [right; exact X|exact Y].
Qed.

(* after k segments *)
Record kept (k : nat) (seg vis : list nat) (ts : list tally) : Prop := {
  k_len : length seg = n * m;
  k_lenv : length vis = n * m;
  k_ts : length ts = k;
  k_lab : forall p, ing p -> val 0 seg p = 0 \/ exists j, j < k /\ val 0 seg p = first + j;
  k_vis : forall p, ing p -> val 0 vis p = 0 \/ exists j, j < k /\ val 0 vis p = first + j;
  k_seg : forall j o, j < k -> nth_error O j = Some o -> forall p, ing p -> (val 0 seg p = first + j <-> comp (first + j) o p);
  k_tally : forall j o t, nth_error O j = Some o -> nth_error ts j = Some t ->
    exists T, round_trip (comp (first + j) o) o T /\ tallies nm (lim o) T t }.

Lemma island_ok k seg vis ts o ids : kept k seg vis ts -> nth_error O k = Some o -> nth_error ids k = Some (first + k) ->
  exists seg' vis' t, island n m P im raw ids (map pos O) (seg, vis, ts) k = Ok (seg', vis', ts ++ [t]) /\ kept (S k) seg' vis' (ts ++ [t]).
Proof.
  intros J Eo Ei. destruct (HO k o Eo) as [Io Ro]. pose proof (nth_error_Some O k) as KL. rewrite Eo in KL. assert (KO : k < length O) by (apply KL; discriminate).
  unfold island. rewrite (proj2 (oget_Ok _ ids k (first + k)) Ei). cbn [obind]. unfold check. rewrite map_length.
  destruct (Nat.ltb_spec k (length O)); [|lia]. cbn [obind].
  assert (EG : oget (map pos O) k = Ok (pos o)) by (unfold oget; rewrite nth_error_map, Eo; reflexivity).
  rewrite EG. cbn [obind]. rewrite coords_ok by exact Io. cbn [obind]. rewrite value_ok by (auto; lia). cbn [obind]. fold (lim o).
  destruct (waves_ok n m (first + k) raw Lr (gather m (first + k) im (lim o)) (gstep (first + k) (lim o)) (fun a => length (fst a) = n * m))
    with (s0 := o) (vis0 := vis) (a0 := (seg, Tally 0 0 0 0 0)) as (W & vis' & E & LV & OLD & NW & HW).
  { intros a p La Ip. apply gather_ok; [lia|exact La|exact Ip]. }
  { exact Io. }
  { exact Ro. }
  { cbn [fst]. apply J. }
  { apply J. }
  { intros p Ip. destruct (k_vis _ _ _ _ J p Ip) as [X|(j & Hj & X)]; lia. }
  rewrite E. cbn [obind].
  destruct (gsteps (first + k) (lim o) (o :: W) (seg, Tally 0 0 0 0 0)) as (G1 & G2 & G3 & G4).
  { cbn [fst]. apply J. }
  { intros p [<-|Hp]; [exact Io|]. apply HW in Hp. tauto. }
  destruct (fold_left (gstep (first + k) (lim o)) (o :: W) (seg, Tally 0 0 0 0 0)) as [seg' t'] eqn:EF. cbn [fst snd] in *.
  assert (B0 : Mb n m (first + k) raw o) by (split; assumption).
  assert (SET : forall p, ing p -> (In p (o :: W) /\ val 0 raw p = first + k <-> comp (first + k) o p)).
  { intros p Ip. split.
    - intros [[<-|Hp] Ep]; [apply conn_refl; exact B0|]. apply HW in Hp. destruct Hp as (_ & q & Cq & Aq).
      eapply conn_step; [exact Cq|exact Aq|split; assumption].
    - intro C. split; [|apply conn_P in C; apply C]. destruct C as [|q r C Aq Mr]; [left; reflexivity|]. right. apply HW. split; [apply Mr|]. exists q. auto. }
  assert (DEC : forall p, ing p -> {comp (first + k) o p} + {~ comp (first + k) o p}).
  { intros p Ip. destruct (in_dec prod_eq_dec_nat p (o :: W)) as [X|X], (Nat.eq_dec (val 0 raw p) (first + k)) as [Y|Y];
      [left; apply SET; auto| | |]; right; intro C; apply SET in C; tauto. }
  exists seg', vis', t'. split; [reflexivity|]. constructor.
  - exact G1.
  - exact LV.
  - rewrite app_length, (k_ts _ _ _ _ J). cbn. lia.
  - intros p Ip. destruct (DEC p Ip) as [C|C].
    + right. exists k. split; [lia|]. apply G3; [exact Ip|]. apply SET; assumption.
    + rewrite G4 by (auto; intro X; apply C, SET; auto). destruct (k_lab _ _ _ _ J p Ip) as [X|(j & Hj & X)]; [left; exact X|right; exists j; split; [lia|exact X]].
  - intros p Ip. destruct (OLD p Ip) as [X|X]; [right; exists k; split; [lia|exact X]|]. rewrite X.
    destruct (k_vis _ _ _ _ J p Ip) as [Y|(j & Hj & Y)]; [left; exact Y|right; exists j; split; [lia|exact Y]].
  - intros j oj Hj Ej p Ip. destruct (Nat.eq_dec j k) as [->|N].
    + assert (oj = o) by congruence. subst oj. split.
      * intro V. destruct (DEC p Ip) as [C|C]; [exact C|]. rewrite G4 in V by (auto; intro X; apply C, SET; auto).
        destruct (k_lab _ _ _ _ J p Ip) as [X|(i & Hi & X)]; lia.
      * intro C. apply G3; [exact Ip|]. apply SET; assumption.
    + destruct (DEC p Ip) as [C|C].
      * rewrite G3 by (auto; apply SET; assumption). split; [lia|]. intro C'. apply conn_P in C, C'. destruct C as [_ [_ X]], C' as [_ [_ Y]]. lia.
      * rewrite G4 by (auto; intro X; apply C, SET; auto). apply (k_seg _ _ _ _ J j oj); [lia|exact Ej|exact Ip].
  - intros j oj t Ej Et. destruct (Nat.lt_ge_cases j k) as [Hj|Hj].
    + rewrite nth_error_app1 in Et by (rewrite (k_ts _ _ _ _ J); exact Hj). apply (k_tally _ _ _ _ J j oj t Ej Et).
    + rewrite nth_error_app2 in Et by (rewrite (k_ts _ _ _ _ J); exact Hj). rewrite (k_ts _ _ _ _ J) in Et.
      destruct (j - k) as [|i] eqn:EK; [|destruct i; discriminate]. cbn in Et. injection Et as <-. assert (j = k) by lia. subst j.
      assert (oj = o) by congruence. subst oj.
      exists (filter (fun p => val 0 raw p =? first + k) (o :: W)). split; [|rewrite G2; apply tallies_of].
      cbn [filter]. rewrite Ro, Nat.eqb_refl. eexists. split; [reflexivity|]. split; [apply NoDup_filter; exact NW|].
      intros p. rewrite filter_In, HW, Nat.eqb_eq. split.
      * intros ((Ip & q & Cq & Aq) & Ep). split; [eapply conn_step; [exact Cq|exact Aq|split; assumption]|]. exists q. auto.
      * intros (Cp & q & Cq & Aq). apply conn_P in Cp. destruct Cp as [_ [Ip Ep]]. split; [|exact Ep]. split; [exact Ip|]. exists q. auto.
Qed.
Lemma zeros p : val 0 (repeat 0 (n * m)) p = 0.
Proof. unfold SegProofs.val. destruct (nth_in_or_default (pos p) (repeat 0 (n * m)) 0) as [H|H]; [|exact H]. apply repeat_spec in H. exact H. Qed.
Lemma kept_nil : kept 0 (repeat 0 (n * m)) (repeat 0 (n * m)) [].
Proof.
  constructor; try (apply repeat_length); try reflexivity; try (intros; left; apply zeros).
  - intros j o H. lia.
  - intros j o t _ H. destruct j; discriminate.
Qed.
Lemma islands_ok ids : ids = seq first (length O) ->
  exists seg vis ts, ofold (island n m P im raw ids (map pos O)) (seq 0 (length ids)) (repeat 0 (n * m), repeat 0 (n * m), []) = Ok (seg, vis, ts) /\
    kept (length O) seg vis ts.
Proof.
  intros EI. assert (LI : length ids = length O) by (rewrite EI; apply seq_length). rewrite LI.
  assert (G : forall r k seg vis ts, k + r = length O -> kept k seg vis ts ->
    exists seg' vis' ts', ofold (island n m P im raw ids (map pos O)) (seq k r) (seg, vis, ts) = Ok (seg', vis', ts') /\ kept (length O) seg' vis' ts').
  { induction r as [|r IH]; intros k seg vis ts EK J.
    - exists seg, vis, ts. rewrite Nat.add_0_r in EK. subst k. auto.
    - cbn [seq ofold]. destruct (nth_error O k) as [o|] eqn:Eo; [|apply nth_error_None in Eo; lia].
      destruct (island_ok k seg vis ts o ids J Eo) as (seg1 & vis1 & t1 & E1 & J1).
      { rewrite EI. rewrite (nth_error_nth' _ 0) by (rewrite seq_length; lia). rewrite seq_nth by lia. reflexivity. }
      rewrite E1. cbn [obind]. apply (IH (S k)); [lia|exact J1]. }
  apply (G (length O) 0); [lia|apply kept_nil].
Qed.
End Islands.
