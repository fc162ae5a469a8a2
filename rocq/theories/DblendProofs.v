(* Lemmas on segmentation with deblending, part 1: the search around a pixel. *)
From Coq Require Import NArith QArith ZifyBool ZifyNat Permutation.
From Verif Require Import Base IndexModel IndexProofs VecModel VecProofs VecProofs2 ImageModel ImageSpec ImageProofs
  ImageProofs2 ImageProofs3 ImageProofs4 SegModel SegSpec SegProofs SegProofs2 OrderModel SdistSpec DblendModel.
Local Open Scope nat_scope.

Lemma sq_dist_eq p q : sq_dist p q = dist2 p q.
Proof. reflexivity. Qed.

Section Grid.
Context (n m : nat).
Notation ing := (ing n m).
Notation pos := (pos m).
Notation val := (val m).

Lemma coords_ok p : ing p -> coords n m (pos p) = Ok p.
Proof.
  intros [A B]. unfold coords, SegProofs.pos. rewrite mult_ids_2 by assumption. cbn [obind oget nth_error]. destruct p; reflexivity.
Qed.

(* ---- the neighbours that are not marked ---- *)
Section Mark.
Context (c : nat).
Definition unv (d : list nat) : nat := length (filter (fun v => negb (v =? c)) d).
Lemma unv_le d : unv d <= length d.
Proof. unfold unv. induction d as [|v d IH]; cbn; [lia|]. destruct (negb (v =? c)); cbn; lia. Qed.
Lemma unv_upd : forall d i v, nth_error d i = Some v -> v <> c -> S (unv (upd d i c)) = unv d.
Proof.
  unfold unv. induction d as [|b d IH]; intros [|i] v E N; cbn in E; try discriminate.
  - injection E as ->. cbn. rewrite Nat.eqb_refl. apply Nat.eqb_neq in N. rewrite N. reflexivity.
  - specialize (IH _ _ E N). cbn. destruct (negb (b =? c)); cbn; lia.
Qed.

Notation fresh d := (fun q => negb (val 0 d q =? c)).
Lemma marks_ok : forall l vis next, NoDup l -> (forall q, In q l -> ing q) -> length vis = n * m ->
  exists vis', ofold (mark m c) l (vis, next) = Ok (vis', next ++ filter (fresh vis) l) /\ length vis' = n * m /\
    unv vis' + length (filter (fresh vis) l) = unv vis /\
    (forall p, ing p -> In p l -> val 0 vis' p = c) /\
    (forall p, ing p -> ~ In p l -> val 0 vis' p = val 0 vis p).
Proof.
  induction l as [|q l IH]; intros vis next N I L.
  - exists vis. cbn. rewrite app_nil_r. split; [reflexivity|]. split; [exact L|]. split; [lia|]. split; [contradiction|]. auto.
  - inversion N as [|? ? N1 N2]; subst. cbn [ofold]. unfold mark at 1.
    change (fst q * m + snd q) with (pos q).
    assert (Iq : ing q) by (apply I; left; reflexivity).
    rewrite (oget_val n m 0) by auto. cbn [obind].
    destruct (Nat.eqb_spec (val 0 vis q) c) as [E|E].
    + cbn [obind]. destruct (IH vis next N2) as (vis' & E1 & L1 & U1 & A1 & B1); auto.
      { intros r Hr. apply I. right. exact Hr. }
      exists vis'. cbn [filter]. rewrite (proj2 (Nat.eqb_eq _ _) E). cbn [negb].
      split; [exact E1|]. split; [exact L1|]. split; [exact U1|]. split.
      * intros p Hp [<-|H]; [|apply A1; auto]. rewrite B1; auto.
      * intros p Hp H. apply B1; auto. intro C. apply H. right. exact C.
    + rewrite oset_ok with (n := n) by auto. cbn [obind].
      destruct (IH (upd vis (pos q) c) (next ++ [q]) N2) as (vis' & E1 & L1 & U1 & A1 & B1).
      { intros r Hr. apply I. right. exact Hr. }
      { rewrite upd_length. exact L. }
      assert (FE : filter (fresh (upd vis (pos q) c)) l = filter (fresh vis) l).
      { apply filter_ext_in. intros r Hr. rewrite (val_upd_other n m) by (first [exact Iq | apply I; right; exact Hr | intros ->; contradiction]). reflexivity. }
      rewrite FE in *. exists vis'. cbn [filter]. rewrite (proj2 (Nat.eqb_neq _ _) E). cbn [negb].
      split; [rewrite E1, <- app_assoc; reflexivity|]. split; [exact L1|]. split; [|split].
      * cbn [length]. pose proof (unv_upd vis (pos q) (val 0 vis q)) as U.
        rewrite (nth_error_val n m 0) in U by auto. specialize (U eq_refl E). lia.
      * intros p Hp [<-|H]; [|apply A1; auto]. rewrite B1 by auto. apply (val_upd_same n m); auto.
      * intros p Hp H. rewrite B1 by (auto; intro C; apply H; right; exact C).
        apply (val_upd_other n m); auto. intros ->. apply H. left. reflexivity.
Qed.
Lemma explore_ok vis next p : length vis = n * m -> ing p ->
  exists vis' new, explore n m c (vis, next) p = Ok (vis', next ++ new) /\ length vis' = n * m /\ NoDup new /\
    unv vis' + length new = unv vis /\
    (forall q, In q new <-> ing q /\ adj p q /\ val 0 vis q <> c) /\
    (forall q, ing q -> (val 0 vis' q = c <-> adj p q \/ val 0 vis q = c)) /\
    (forall q, ing q -> val 0 vis' q = c \/ val 0 vis' q = val 0 vis q).
Proof.
  intros L Ip. destruct (marks_ok (nbrs n m p) vis next) as (vis' & E & L' & U & A & B).
  { apply nbrs_nodup. }
  { intros q Hq. apply nbrs_in in Hq; tauto. }
  { exact L. }
  exists vis', (filter (fresh vis) (nbrs n m p)). split; [exact E|]. split; [exact L'|]. split; [apply NoDup_filter, nbrs_nodup|].
  split; [exact U|]. split; [|split].
  - intros q. rewrite filter_In, nbrs_in by exact Ip. destruct (Nat.eqb_spec (val 0 vis q) c); cbn; intuition congruence.
  - intros q Hq. destruct (in_dec prod_eq_dec_nat q (nbrs n m p)) as [H|H].
    + rewrite (A q Hq H). apply nbrs_in in H; [|exact Ip]. tauto.
    + rewrite (B q Hq H). rewrite nbrs_in in H by exact Ip. tauto.
  - intros q Hq. destruct (in_dec prod_eq_dec_nat q (nbrs n m p)) as [H|H]; [left; apply A; auto|right; apply B; auto].
Qed.
End Mark.

(* ---- steps ---- *)
Lemma adj_steps p q o : adj p q -> (steps o q = steps o p + 1 \/ steps o q = steps o p - 1)%Z.
Proof. unfold adj, steps. lia. Qed.
Lemma steps_nonneg p q : (0 <= steps p q)%Z.
Proof. unfold steps. lia. Qed.
Lemma steps_zero p q : steps p q = 0%Z -> p = q.
Proof. destruct p as [a b], q as [c d]. unfold steps. cbn [fst snd]. intro H. f_equal; lia. Qed.
Lemma steps_self p : steps p p = 0%Z.
Proof. unfold steps. lia. Qed.
Lemma steps_sym p q : steps p q = steps q p.
Proof. unfold steps. lia. Qed.
Lemma steps_back o q k : ing o -> ing q -> steps o q = (k + 1)%Z -> (0 <= k)%Z -> exists p, ing p /\ adj p q /\ steps o p = k.
Proof.
  destruct o as [a b], q as [c d]. intros [A B] [C D]. unfold steps, adj. cbn [fst snd] in *. intros H K.
  destruct (lt_eq_lt_dec a c) as [[X|X]|X].
  - exists (c - 1, d). unfold SegProofs.ing. cbn [fst snd]. lia.
  - destruct (lt_eq_lt_dec b d) as [[Y|Y]|Y].
    + exists (c, d - 1). unfold SegProofs.ing. cbn [fst snd]. lia.
    + lia.
    + exists (c, d + 1). unfold SegProofs.ing. cbn [fst snd]. lia.
  - exists (c + 1, d). unfold SegProofs.ing. cbn [fst snd]. lia.
Qed.
Lemma steps_down o q : ing o -> ing q -> forall j k, (0 <= k)%Z -> steps o q = (k + Z.of_nat j)%Z -> exists r, ing r /\ steps o r = k.
Proof.
  intros Io Iq j. revert q Iq. induction j as [|j IH]; intros q Iq k K H; [exists q; split; [exact Iq|lia]|].
  destruct (steps_back o q (k + Z.of_nat j) Io Iq ltac:(lia) ltac:(lia)) as (p & Ip & _ & Sp). apply (IH p Ip k K Sp).
Qed.
Lemma steps_bound p q : ing p -> ing q -> (steps p q + 2 <= Z.of_nat (n + m))%Z.
Proof. intros [A B] [C D]. unfold steps. lia. Qed.

(* ---- the search ---- *)
Section Search.
Context (c first : nat) (F0 : 0 < first) (seg : list nat) (Ls : length seg = n * m) (O : list point).
Context (HO : forall o, In o O -> ing o).
Context (HL : forall q, ing q -> val 0 seg q = 0 \/ first <= val 0 seg q < first + length O).
Context (p0 : point) (I0 : ing p0).
(* distance of a labelled pixel to its peak *)
Definition pkd (q : point) : Z := dist2 q (nth (val 0 seg q - first) O (0, 0)).

Lemma slot_peak q : ing q -> val 0 seg q <> 0 ->
  slot first (map pos O) (val 0 seg q) = Ok (pos (nth (val 0 seg q - first) O (0, 0))) /\ ing (nth (val 0 seg q - first) O (0, 0)).
Proof.
  intros Iq N. destruct (HL q Iq) as [E|E]; [contradiction|]. unfold slot.
  destruct (Nat.ltb_spec (val 0 seg q) first); [lia|].
  destruct (nth_error O (val 0 seg q - first)) as [o|] eqn:Eo.
  - rewrite (nth_error_nth _ _ (0, 0) Eo). split; [|apply HO; apply nth_error_In in Eo; exact Eo].
    unfold oget. rewrite nth_error_map, Eo. reflexivity.
  - apply nth_error_None in Eo. lia.
Qed.

(* best of the labelled pixels of l *)
Definition best (l : list point) (q : point) : Prop :=
  In q l /\ val 0 seg q <> 0 /\ forall q', In q' l -> val 0 seg q' <> 0 -> (pkd q <= pkd q')%Z.
Definition none (l : list point) : Prop := forall q, In q l -> val 0 seg q = 0.

(* within the wave at k steps *)
Record layer (k : Z) (vis0 : list nat) (done todo : list point) (s : search) : Prop := {
  l_len : length (s_vis s) = n * m;
  l_old : forall q, ing q -> val 0 (s_vis s) q = c \/ val 0 (s_vis s) q = val 0 vis0 q;
  l_none : none done -> s_neib s = 0 /\ s_closest s = None /\ NoDup (s_next s) /\
    (forall q, ing q -> (val 0 (s_vis s) q = c <-> (steps p0 q <= k)%Z \/ exists p, In p done /\ adj p q)) /\
    (forall q, In q (s_next s) <-> ing q /\ steps p0 q = (k + 1)%Z /\ exists p, In p done /\ adj p q);
  l_some : none done \/ exists q, best done q /\ s_neib s = val 0 seg q /\ s_closest s = Some (pkd q) }.

Lemma none_dec l : none l \/ exists q, In q l /\ val 0 seg q <> 0.
Proof.
  induction l as [|q l IH]; [left; intros q []|]. destruct (Nat.eq_dec (val 0 seg q) 0) as [E|E].
  - destruct IH as [IH|(r & H & N)]; [left; intros r [<-|H]; auto|right; exists r; split; [right; exact H|exact N]].
  - right. exists q. split; [left; reflexivity|exact E].
Qed.

Lemma look_ok k vis0 done p todo s : layer k vis0 done (p :: todo) s -> (0 <= k)%Z ->
  (forall q, In q (done ++ p :: todo) -> ing q /\ steps p0 q = k) ->
  exists s', look n m c first seg (map pos O) s p = Ok s' /\ layer k vis0 (done ++ [p]) todo s'.
Proof.
  intros [J1 J2 J3 J4] K HP. destruct (HP p) as [Ip Sp]; [apply in_app_iff; right; left; reflexivity|].
  unfold look. change (fst p * m + snd p) with (pos p). rewrite (oget_val n m 0) by auto. cbn [obind].
  destruct (Nat.eqb_spec (val 0 seg p) 0) as [E|E].
  - cbn [obind]. destruct J4 as [ND|(q & B & Eq & Ec)].
    + destruct (J3 ND) as (H1 & H2 & H3 & H4 & H5). rewrite H1. cbn [Nat.eqb].
      destruct (explore_ok c (s_vis s) (s_next s) p J1 Ip) as (vis' & new & E1 & L1 & N1 & _ & HN & HV & HO').
      rewrite E1. cbn [obind]. eexists. split; [reflexivity|]. constructor; cbn [s_vis s_next s_neib s_closest].
      * exact L1.
      * intros q Iq. destruct (HO' q Iq) as [X|X]; [left; exact X|rewrite X; apply J2; exact Iq].
      * intros _. split; [reflexivity|]. split; [exact H2|]. split; [|split].
        -- apply NoDup_app_intro; [exact H3|exact N1|]. intros q A B. apply H5 in A. apply HN in B.
           destruct B as (Iq & A2 & V). apply V. apply H4; [exact Iq|]. right. apply A.
        -- intros q Iq. rewrite (HV q Iq), (H4 q Iq). setoid_rewrite in_app_iff. cbn [In]. split.
           ++ intros [A|[A|(r & A & B)]]; [right; exists p; auto|left; exact A|right; exists r; auto].
           ++ intros [A|(r & [A|[<-|[]]] & B)]; [right; left; exact A|right; right; exists r; auto|left; exact B].
        -- intros q. rewrite in_app_iff, (H5 q), (HN q). setoid_rewrite in_app_iff. cbn [In]. split.
           ++ intros [(A & B & r & C & D)|(A & B & C)]; [split; [exact A|]; split; [exact B|]; exists r; auto|].
              split; [exact A|]. split; [|exists p; auto].
              destruct (adj_steps p q p0 B) as [X|X]; [lia|]. exfalso. apply C. apply H4; [exact A|]. left. lia.
           ++ intros (A & B & r & [C|[<-|[]]] & D); [left; split; [exact A|]; split; [exact B|]; exists r; auto|].
              destruct (Nat.eq_dec (val 0 (s_vis s) q) c) as [V|V]; [|right; auto].
              apply H4 in V; [|exact A]. destruct V as [V|(r & R1 & R2)]; [lia|]. left. split; [exact A|]. split; [exact B|]. exists r. auto.
      * left. intros q Hq. apply in_app_iff in Hq. destruct Hq as [Hq|[<-|[]]]; [apply ND; exact Hq|exact E].
    + assert (N0 : s_neib s <> 0) by (rewrite Eq; apply B). apply Nat.eqb_neq in N0. rewrite N0.
      exists s. split; [reflexivity|]. constructor; auto.
      * intros ND. exfalso. apply (proj1 (proj2 B)). apply ND. apply in_app_iff. left. apply B.
      * right. exists q. split; [|auto]. destruct B as (B1 & B2 & B3). split; [apply in_app_iff; auto|]. split; [exact B2|].
        intros q' Hq' N'. apply in_app_iff in Hq'. destruct Hq' as [Hq'|[<-|[]]]; [apply B3; assumption|contradiction].
  - destruct (slot_peak p Ip E) as [Es Io]. rewrite Es. cbn [obind]. rewrite coords_ok by exact Io. cbn [obind].
    rewrite sq_dist_eq. fold (pkd p).
    assert (NN : ~ none (done ++ [p])).
    { intro ND. apply E. apply ND. apply in_app_iff. right. left. reflexivity. }
    destruct (closer (pkd p) (s_closest s)) eqn:EC; cbn [obind s_neib].
    + apply Nat.eqb_neq in E as E'. rewrite E'. eexists. split; [reflexivity|].
      constructor; cbn [s_vis s_next s_neib s_closest]; auto; [contradiction|]. right. exists p. split; [|auto].
      split; [apply in_app_iff; right; left; reflexivity|]. split; [exact E|].
      intros q' Hq' N'. apply in_app_iff in Hq'. destruct Hq' as [Hq'|[<-|[]]]; [|lia].
      destruct J4 as [ND|(q & B & Eq & Ec)]; [destruct N'; apply ND; exact Hq'|]. rewrite Ec in EC. cbn [closer] in EC.
      pose proof (proj2 (proj2 B) q' Hq' N'). lia.
    + destruct J4 as [ND|(q & B & Eq & Ec)].
      { destruct (J3 ND) as (_ & H2 & _). rewrite H2 in EC. discriminate. }
      assert (N0 : s_neib s <> 0) by (rewrite Eq; apply B). apply Nat.eqb_neq in N0. rewrite N0.
      exists s. split; [reflexivity|]. constructor; auto; [contradiction|]. right. exists q. split; [|auto].
      destruct B as (B1 & B2 & B3). split; [apply in_app_iff; auto|]. split; [exact B2|].
      intros q' Hq' N'. apply in_app_iff in Hq'. destruct Hq' as [Hq'|[<-|[]]]; [apply B3; assumption|].
      rewrite Ec in EC. cbn [closer] in EC. lia.
Qed.
Lemma looks_ok k vis0 : (0 <= k)%Z -> forall todo done s, layer k vis0 done todo s ->
  (forall q, In q (done ++ todo) -> ing q /\ steps p0 q = k) ->
  exists s', ofold (look n m c first seg (map pos O)) todo s = Ok s' /\ layer k vis0 (done ++ todo) [] s'.
Proof.
  intro K. induction todo as [|p todo IH]; intros done s J HP.
  - exists s. rewrite app_nil_r. auto.
  - destruct (look_ok k vis0 done p todo s J K HP) as (s1 & E1 & J1). cbn [ofold]. rewrite E1. cbn [obind].
    destruct (IH (done ++ [p]) s1 J1) as (s' & E' & J').
    { rewrite <- app_assoc. exact HP. }
    exists s'. rewrite <- app_assoc in J'. auto.
Qed.

Context (deb : Q).
Definition near (q : point) : Prop := (inject_Z (steps p0 q) < deb)%Q.
(* the outcome of the search *)
Definition found (neib : nat) : Prop :=
  neib = 0 /\ (forall q, ing q -> near q -> val 0 seg q = 0) \/
  neib <> 0 /\ exists q, ing q /\ near q /\ val 0 seg q = neib /\
    forall q', ing q' -> val 0 seg q' <> 0 -> (steps p0 q <= steps p0 q')%Z /\ (steps p0 q' = steps p0 q -> (pkd q <= pkd q')%Z).

Lemma search_ok : forall fuel iter s vis0, (Z.of_nat (n + m) <= Z.of_nat fuel + Z.of_nat iter)%Z -> length (s_vis s) = n * m ->
  (forall q, ing q -> val 0 (s_vis s) q = c \/ val 0 (s_vis s) q = val 0 vis0 q) ->
  s_neib s = 0 -> s_closest s = None -> NoDup (s_next s) ->
  (forall q, ing q -> (val 0 (s_vis s) q = c <-> (steps p0 q <= Z.of_nat iter)%Z)) ->
  (forall q, In q (s_next s) <-> ing q /\ steps p0 q = Z.of_nat iter) ->
  (forall q, ing q -> (steps p0 q < Z.of_nat iter)%Z -> val 0 seg q = 0) ->
  exists s', search_loop n m c first seg (map pos O) deb fuel iter s = Ok s' /\ length (s_vis s') = n * m /\
    (forall q, ing q -> val 0 (s_vis s') q = c \/ val 0 (s_vis s') q = val 0 vis0 q) /\ found (s_neib s').
Proof.
  induction fuel as [|fuel IH]; intros iter s vis0 HF L OLD N0 C0 ND HV HN HZ.
  - exists s. assert (E : s_next s = []).
    { destruct (s_next s) as [|q t] eqn:E; [reflexivity|]. exfalso. destruct (proj1 (HN q) (or_introl eq_refl)) as [Iq Sq].
      pose proof (steps_bound p0 q I0 Iq). lia. }
    cbn [search_loop]. rewrite E. split; [reflexivity|]. split; [exact L|]. split; [exact OLD|]. left. split; [exact N0|].
    intros q Iq _. apply HZ; [exact Iq|]. pose proof (steps_bound p0 q I0 Iq). lia.
  - cbn [search_loop]. destruct (s_next s) as [|q t] eqn:E.
    + exists s. split; [reflexivity|]. split; [exact L|]. split; [exact OLD|]. left. split; [exact N0|].
      intros q Iq _. destruct (Z_lt_le_dec (steps p0 q) (Z.of_nat iter)) as [X|X]; [apply HZ; assumption|]. exfalso.
      destruct (steps_down p0 q I0 Iq (Z.to_nat (steps p0 q - Z.of_nat iter)) (Z.of_nat iter)) as (r & Y1 & Y2); [lia|lia|].
      apply (proj2 (HN r)); auto.
    + rewrite N0. cbn [Nat.eqb andb].
      destruct (Qle_bool deb (inject_Z (Z.of_nat iter))) eqn:ED; cbn [negb].
      * exists s. split; [reflexivity|]. split; [exact L|]. split; [exact OLD|]. left. split; [exact N0|].
        intros r Ir NR. apply HZ; [exact Ir|]. apply Qle_bool_iff in ED. unfold near in NR.
        assert (X : (inject_Z (steps p0 r) < inject_Z (Z.of_nat iter))%Q) by (eapply Qlt_le_trans; eassumption).
        rewrite <- Zlt_Qlt in X. exact X.
      * assert (ED' : (inject_Z (Z.of_nat iter) < deb)%Q).
        { apply Qnot_le_lt. intro X. apply Qle_bool_iff in X. congruence. }
        assert (J0 : layer (Z.of_nat iter) vis0 [] (q :: t) (Search (s_vis s) [] 0 (s_closest s))).
        { constructor; cbn [s_vis s_next s_neib s_closest].
          - exact L.
          - exact OLD.
          - intros _. split; [reflexivity|]. split; [exact C0|]. split; [apply NoDup_nil|]. split.
            + intros r Ir. rewrite (HV r Ir). split; [auto|]. intros [X|(p & [] & _)]; exact X.
            + intros r. split; [intros []|]. intros (_ & _ & p & [] & _).
          - left. intros r []. }
        destruct (looks_ok (Z.of_nat iter) vis0 ltac:(lia) (q :: t) [] _ J0) as (s1 & E1 & J1).
        { intros r Hr. apply HN. exact Hr. }
        rewrite E1. cbn [obind]. cbn [app] in J1. destruct J1 as [K1 K2 K3 K4].
        destruct K4 as [NO|(b & B & Eb & Ec)].
        -- destruct (K3 NO) as (H1 & H2 & H3 & H4 & H5).
           assert (NB : forall r, ing r -> steps p0 r = (Z.of_nat iter + 1)%Z -> exists p, In p (q :: t) /\ adj p r).
           { intros r Ir Sr. destruct (steps_back p0 r (Z.of_nat iter) I0 Ir Sr ltac:(lia)) as (p & Ip & A & Sp).
             exists p. split; [apply HN; auto|exact A]. }
           apply (IH (S iter) s1 vis0); auto; try lia.
           ++ intros r Ir. rewrite (H4 r Ir). split.
              ** intros [X|(p & X & A)]; [lia|]. apply HN in X. destruct (adj_steps p r p0 A); lia.
              ** intros X. destruct (Z_le_gt_dec (steps p0 r) (Z.of_nat iter)) as [Y|Y]; [left; exact Y|right]. apply NB; [exact Ir|lia].
           ++ intros r. rewrite (H5 r). split.
              ** intros (A & B & _). split; [exact A|lia].
              ** intros [A B]. split; [exact A|]. split; [lia|]. apply NB; [exact A|lia].
           ++ intros r Ir Sr. destruct (Z_lt_le_dec (steps p0 r) (Z.of_nat iter)) as [X|X]; [apply HZ; assumption|].
              apply NO. apply HN. split; [exact Ir|lia].
        -- assert (NZ : s_neib s1 <> 0) by (rewrite Eb; apply B).
           exists s1. split.
           { destruct fuel; cbn [search_loop]; destruct (s_next s1); try reflexivity;
             apply Nat.eqb_neq in NZ; rewrite NZ; reflexivity. }
           split; [exact K1|]. split; [exact K2|]. right. split; [exact NZ|]. destruct B as (B1 & B2 & B3).
           apply HN in B1 as B1'. destruct B1' as [Ib Sb]. exists b. split; [exact Ib|]. split; [unfold near; rewrite Sb; exact ED'|].
           split; [auto|]. intros q' Iq' Nq'. split.
           ++ rewrite Sb. destruct (Z_lt_le_dec (steps p0 q') (Z.of_nat iter)) as [X|X]; [|exact X]. destruct Nq'. apply HZ; assumption.
           ++ intros X. apply B3; [|exact Nq']. apply HN. split; [exact Iq'|lia].
Qed.
Lemma search_start vis : length vis = n * m -> val 0 vis p0 = c -> (forall q, ing q -> q <> p0 -> val 0 vis q <> c) ->
  exists s', search_loop n m c first seg (map pos O) deb (n + m) 0 (Search vis [p0] 0 None) = Ok s' /\ length (s_vis s') = n * m /\
    (forall q, ing q -> val 0 (s_vis s') q = c \/ val 0 (s_vis s') q = val 0 vis q) /\ found (s_neib s').
Proof.
  intros L V0 V1. apply search_ok; cbn [s_vis s_next s_neib s_closest]; auto.
  - lia.
  - apply NoDup_cons; [intros []|apply NoDup_nil].
  - intros q Iq. split.
    + intro X. destruct (prod_eq_dec_nat q p0) as [->|N]; [rewrite steps_self; lia|]. destruct (V1 q Iq N X).
    + intro X. pose proof (steps_nonneg p0 q). assert (Y : steps p0 q = 0%Z) by lia. apply steps_zero in Y. subst q. exact V0.
  - intros q. cbn [In]. split.
    + intros [<-|[]]. split; [exact I0|]. rewrite steps_self. reflexivity.
    + intros [_ X]. left. apply steps_zero. exact X.
  - intros q _ X. pose proof (steps_nonneg p0 q). lia.
Qed.
End Search.
End Grid.
