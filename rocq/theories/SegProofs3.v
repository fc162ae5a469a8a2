(* Lemmas on segmentation, part 3: foreach_segment. *)
From Coq Require Import NArith ZifyBool ZifyNat Permutation.
From Verif Require Import Base IndexModel IndexProofs VecModel VecProofs VecProofs2 ImageModel ImageSpec ImageProofs
  ImageProofs2 ImageProofs3 ImageProofs4 SegModel SegSpec SegProofs SegProofs2.

Section Bfs.
Context (n m : nat).
Notation ing := (ing n m).
Notation pos := (pos m).
Notation val := (val m).

Section One.
Context (sm : list nat) (c : nat) (Lsm : length sm = n * m).
Definition M (p : nat * nat) : Prop := ing p /\ val 0 sm p = c.
Definition unv (d : list nat) : nat := length (filter (fun v => negb (v =? c)) d).
Lemma unv_le d : unv d <= length d.
Proof. unfold unv. induction d as [|v d IH]; cbn; [lia|]. destruct (negb (v =? c)); cbn; lia. Qed.
Lemma unv_upd : forall d i v, nth_error d i = Some v -> v <> c -> S (unv (upd d i c)) = unv d.
Proof.
  unfold unv. induction d as [|b d IH]; intros [|i] v E N; cbn in E; try discriminate.
  - injection E as ->. cbn. rewrite Nat.eqb_refl. apply Nat.eqb_neq in N. rewrite N. reflexivity.
  - specialize (IH _ _ E N). cbn. destruct (negb (b =? c)); cbn; lia.
Qed.

Notation fresh d := (fun q => negb (val 0 d q =? c)).
Lemma fetch_ok : forall l s, NoDup l -> (forall q, In q l -> ing q) -> length (b_vis s) = n * m ->
  exists vis, ofold (fun s q =>
      let '(tty, ttx) := q in
      v <- oget (b_vis s) (tty * m + ttx) ;;
      if v =? c then Ok s
      else vis <- oset (b_vis s) (tty * m + ttx) c ;; Ok (Bfs vis (b_ids s) (b_next s ++ [q]))) l s =
    Ok (Bfs vis (b_ids s) (b_next s ++ filter (fresh (b_vis s)) l)) /\ length vis = n * m /\
    unv vis + length (filter (fresh (b_vis s)) l) = unv (b_vis s) /\
    (forall p, ing p -> In p l -> val 0 vis p = c) /\
    (forall p, ing p -> ~ In p l -> val 0 vis p = val 0 (b_vis s) p).
Proof.
  induction l as [|q l IH]; intros s N I L.
  - exists (b_vis s). cbn. rewrite app_nil_r. destruct s; cbn in *. split; [reflexivity|]. split; [exact L|]. split; [lia|].
    split; [contradiction|]. auto.
  - inversion N as [|? ? N1 N2]; subst. cbn [ofold]. destruct q as [ty tx] eqn:Eq. rewrite <- Eq in *.
    replace (ty * m + tx) with (pos q) by (rewrite Eq; reflexivity).
    assert (Iq : ing q) by (apply I; left; reflexivity).
    rewrite (oget_val n m 0) by auto. cbn [obind].
    destruct (Nat.eqb_spec (val 0 (b_vis s) q) c) as [E|E].
    + cbn [obind]. destruct (IH s N2) as (vis & E1 & L1 & U1 & A1 & B1); auto.
      { intros r Hr. apply I. right. exact Hr. }
      exists vis. cbn [filter]. rewrite (proj2 (Nat.eqb_eq _ _) E). cbn [negb].
      split; [exact E1|]. split; [exact L1|]. split; [exact U1|]. split.
      * intros p Hp [<-|H]; [|apply A1; auto]. rewrite B1; auto.
      * intros p Hp H. apply B1; auto. intro C. apply H. right. exact C.
    + rewrite oset_ok with (n := n) by auto. cbn [obind].
      destruct (IH (Bfs (upd (b_vis s) (pos q) c) (b_ids s) (b_next s ++ [q])) N2) as (vis & E1 & L1 & U1 & A1 & B1).
      { intros r Hr. apply I. right. exact Hr. }
      { cbn [b_vis]. rewrite upd_length. exact L. }
      cbn [b_vis b_ids b_next] in *.
      assert (FE : filter (fresh (upd (b_vis s) (pos q) c)) l = filter (fresh (b_vis s)) l).
      { apply filter_ext_in. intros r Hr. rewrite (val_upd_other n m) by (first [exact Iq | apply I; right; exact Hr | intros ->; contradiction]). reflexivity. }
      rewrite FE in *. exists vis. cbn [filter]. rewrite (proj2 (Nat.eqb_neq _ _) E). cbn [negb].
      split; [rewrite E1, <- app_assoc; reflexivity|]. split; [exact L1|]. split; [|split].
      * cbn [length]. pose proof (unv_upd (b_vis s) (pos q) (val 0 (b_vis s) q)) as U.
        rewrite (nth_error_val n m 0) in U by auto. specialize (U eq_refl E). lia.
      * intros p Hp [<-|H]; [|apply A1; auto]. rewrite B1 by auto. apply (val_upd_same n m); auto.
      * intros p Hp H. rewrite B1 by (auto; intro C; apply H; right; exact C).
        apply (val_upd_other n m); auto. intros ->. apply H. left. reflexivity.
Qed.

Section Seed.
Context (s0 : nat * nat) (I0 : ing s0) (M0 : val 0 sm s0 = c) (vis0 : list nat).

Record binv (rest todo : list (nat * nat)) (s : bfs) : Prop := {
  v_len : length (b_vis s) = n * m;
  v_ids : b_ids s = pos s0 :: map pos rest;
  v_nd : NoDup (rest ++ todo ++ b_next s);
  v_in : forall p, In p (rest ++ todo ++ b_next s) -> ing p /\ val 0 (b_vis s) p = c /\ exists q, conn M s0 q /\ adj q p;
  v_M : forall p, In p rest -> M p;
  v_all : forall p, M p -> val 0 (b_vis s) p = c -> In p (rest ++ todo ++ b_next s);
  v_cl : forall p q, In p (s0 :: rest) -> ing q -> adj p q -> val 0 (b_vis s) q = c;
  v_old : forall p, ing p -> val 0 (b_vis s) p = c \/ val 0 (b_vis s) p = val 0 vis0 p }.

Lemma rest_conn rest todo s p : binv rest todo s -> In p (s0 :: rest) -> conn M s0 p.
Proof.
  intros J [<-|H]; [apply conn_refl; split; assumption|].
  destruct (v_in _ _ _ J p) as (Ip & _ & q & Cq & A); [apply in_app_iff; auto|].
  eapply conn_step; [exact Cq|exact A|]. apply (v_M _ _ _ J p H).
Qed.

Lemma wave_step rest p todo s : binv rest (p :: todo) s ->
  exists rest' s', wave n m sm c s p = Ok s' /\ binv rest' todo s' /\
    unv (b_vis s') + length (b_next s') = unv (b_vis s) + length (b_next s).
Proof.
  intros J. destruct (v_in _ _ _ J p) as (Ip & Vp & q0 & Cq0 & Aq0).
  { apply in_app_iff. right. left. reflexivity. }
  unfold wave. destruct p as [y x] eqn:Ep. rewrite <- Ep in *.
  replace (y * m + x) with (pos p) by (rewrite Ep; reflexivity).
  rewrite (oget_val n m 0) by auto. cbn [obind].
  destruct (Nat.eqb_spec (val 0 sm p) c) as [E|E].
  - unfold fetch_neighbors.
    destruct (fetch_ok (nbrs n m p) (Bfs (b_vis s) (b_ids s ++ [pos p]) (b_next s))) as (vis & E1 & L1 & U1 & A1 & B1).
    + apply nbrs_nodup.
    + intros q Hq. apply nbrs_in in Hq; tauto.
    + apply J.
    + cbn [b_vis b_ids b_next] in *. set (new := filter _ (nbrs n m p)) in *.
      exists (rest ++ [p]). eexists. split; [exact E1|]. cbn [b_vis b_next].
      assert (HN : forall q, In q new <-> ing q /\ adj p q /\ val 0 (b_vis s) q <> c).
      { intros q. unfold new. rewrite filter_In, nbrs_in by exact Ip. destruct (Nat.eqb_spec (val 0 (b_vis s) q) c); cbn; intuition congruence. }
      assert (VV : forall q, ing q -> val 0 vis q = c <-> adj p q \/ val 0 (b_vis s) q = c).
      { intros q Hq. destruct (in_dec prod_eq_dec_nat q (nbrs n m p)) as [H|H].
        - rewrite (A1 q Hq H). apply nbrs_in in H; [|exact Ip]. tauto.
        - rewrite (B1 q Hq H). rewrite nbrs_in in H by exact Ip. tauto. }
      split; [|rewrite app_length; lia].
      assert (CP : conn M s0 p) by (eapply conn_step; [exact Cq0|exact Aq0|split; assumption]).
      constructor; cbn [b_vis b_ids b_next].
      * exact L1.
      * rewrite (v_ids _ _ _ J), map_app. reflexivity.
      * rewrite <- app_assoc. cbn [app]. replace (rest ++ p :: todo ++ b_next s ++ new) with ((rest ++ (p :: todo) ++ b_next s) ++ new)
          by (rewrite <- !app_assoc; reflexivity).
        apply NoDup_app_intro; [apply J|apply NoDup_filter, nbrs_nodup|].
        intros q H1 H2. apply HN in H2. apply (v_in _ _ _ J) in H1. tauto.
      * intros q Hq. assert (Hq' : In q (rest ++ (p :: todo) ++ b_next s) \/ In q new).
        { rewrite !in_app_iff in *. cbn [In] in *. tauto. }
        destruct Hq' as [H|H].
        -- apply (v_in _ _ _ J) in H. destruct H as (Iq & Vq & W). split; [exact Iq|]. split; [apply VV; auto|exact W].
        -- apply HN in H. destruct H as (Iq & A & _). split; [exact Iq|]. split; [apply VV; auto|]. exists p. auto.
      * intros q Hq. apply in_app_iff in Hq. destruct Hq as [Hq|[<-|[]]]; [apply (v_M _ _ _ J q Hq)|split; assumption].
      * intros q Mq Vq. rewrite !in_app_iff. cbn [In].
        destruct (Nat.eq_dec (val 0 (b_vis s) q) c) as [V|V].
        -- pose proof (v_all _ _ _ J q Mq V) as H. rewrite !in_app_iff in H. cbn [In] in H. tauto.
        -- right. right. right. apply HN. split; [apply Mq|]. split; [|exact V]. apply VV in Vq; [|apply Mq]. tauto.
      * intros q r Hq Ir A. apply VV; [exact Ir|]. destruct Hq as [Hq|Hq].
        -- right. apply (v_cl _ _ _ J q r); auto. left. exact Hq.
        -- apply in_app_iff in Hq. destruct Hq as [Hq|[<-|[]]]; [|left; exact A]. right. apply (v_cl _ _ _ J q r); auto. right. exact Hq.
      * intros q Hq. destruct (in_dec prod_eq_dec_nat q (nbrs n m p)) as [H|H]; [left; apply A1; auto|].
        rewrite (B1 q Hq H). apply (v_old _ _ _ J q Hq).
  - exists rest, s. split; [reflexivity|]. split; [|reflexivity].
    destruct J as [J1 J2 J3 J4 J5 J6 J7 J8]. constructor; auto.
    + apply NoDup_remove_1 in J3. exact J3.
    + intros q Hq. apply J4. rewrite !in_app_iff in *. cbn [In]. tauto.
    + intros q Mq Vq. specialize (J6 q Mq Vq). rewrite !in_app_iff in *. cbn [In] in J6.
      destruct J6 as [H|[[H|H]|H]]; auto. subst. destruct Mq. contradiction.
Qed.

Lemma wave_all : forall todo rest s, binv rest todo s ->
  exists rest' s', ofold (wave n m sm c) todo s = Ok s' /\ binv rest' [] s' /\
    unv (b_vis s') + length (b_next s') = unv (b_vis s) + length (b_next s).
Proof.
  induction todo as [|p todo IH]; intros rest s J.
  - exists rest, s. auto.
  - destruct (wave_step rest p todo s J) as (rest1 & s1 & E1 & J1 & U1). cbn [ofold]. rewrite E1. cbn [obind].
    destruct (IH rest1 s1 J1) as (rest' & s' & E' & J' & U'). exists rest', s'. split; [exact E'|]. split; [exact J'|]. lia.
Qed.

Lemma waves_ok : forall fuel rest s, binv rest [] s -> unv (b_vis s) + 1 <= fuel ->
  exists rest' s', waves n m sm c fuel s = Ok s' /\ binv rest' [] s' /\ b_next s' = [].
Proof.
  induction fuel as [|fuel IH]; intros rest s J F; [lia|]. cbn [waves].
  destruct (b_next s) as [|p todo] eqn:E; [exists rest, s; auto|].
  assert (J1 : binv rest (p :: todo) (Bfs (b_vis s) (b_ids s) [])).
  { destruct J as [J1 J2 J3 J4 J5 J6 J7 J8]. rewrite E in *. constructor; cbn [b_vis b_ids b_next]; rewrite ?app_nil_r; auto. }
  destruct (wave_all (p :: todo) rest _ J1) as (rest2 & s2 & E2 & J2 & U2). cbn [b_vis b_next length] in U2.
  rewrite E2. cbn [obind]. destruct (b_next s2) as [|q t] eqn:E3.
  - exists rest2, s2. split; [|auto]. destruct fuel; cbn [waves]; rewrite E3; reflexivity.
  - apply (IH rest2); [exact J2|]. cbn [length] in U2. lia.
Qed.

Lemma seed_ok : length vis0 = n * m -> (forall p, ing p -> val 0 vis0 p <> c) ->
  exists rest vis, waves n m sm c (n * m + 2) (Bfs vis0 [] [s0]) = Ok (Bfs vis (pos s0 :: map pos rest) []) /\
    length vis = n * m /\ (forall p, ing p -> val 0 vis p = c \/ val 0 vis p = val 0 vis0 p) /\
    NoDup rest /\ forall p, In p rest <-> conn M s0 p /\ exists q, conn M s0 q /\ adj q p.
Proof.
  intros L0 V0. replace (n * m + 2) with (S (n * m + 1)) by lia. cbn [waves b_next b_vis b_ids].
  cbn [ofold]. unfold wave at 1. destruct s0 as [y x] eqn:Es. rewrite <- Es in *.
  replace (y * m + x) with (pos s0) by (rewrite Es; reflexivity).
  rewrite (oget_val n m 0) by auto. cbn [obind]. rewrite M0, Nat.eqb_refl. unfold fetch_neighbors.
  cbn [b_ids b_next b_vis app].
  destruct (fetch_ok (nbrs n m s0) (Bfs vis0 [pos s0] [])) as (vis & E1 & L1 & U1 & A1 & B1).
  { apply nbrs_nodup. }
  { intros q Hq. apply nbrs_in in Hq; tauto. }
  { exact L0. }
  cbn [b_vis b_ids b_next app] in *. rewrite E1. cbn [obind].
  assert (FN : filter (fresh vis0) (nbrs n m s0) = nbrs n m s0).
  { assert (A : forall q, In q (nbrs n m s0) -> fresh vis0 q = true).
    { intros q Hq. apply nbrs_in in Hq; [|exact I0]. destruct (Nat.eqb_spec (val 0 vis0 q) c); [|reflexivity].
      exfalso. apply (V0 q); tauto. }
    revert A. generalize (nbrs n m s0). clear. induction l as [|q l IH]; intros A; [reflexivity|]. cbn [filter].
    rewrite A by (left; reflexivity). f_equal. apply IH. intros r Hr. apply A. right. exact Hr. }
  rewrite FN in *.
  destruct (waves_ok (n * m + 1) [] (Bfs vis [pos s0] (nbrs n m s0))) as (rest & s & E & J & EN).
  - constructor; cbn [b_vis b_ids b_next app map]; auto.
    + apply nbrs_nodup.
    + intros p Hp. apply nbrs_in in Hp as Hp'; [|exact I0]. split; [tauto|]. split; [apply A1; tauto|].
      exists s0. split; [apply conn_refl; split; assumption|tauto].
    + contradiction.
    + intros p Mp Vp. destruct (in_dec prod_eq_dec_nat p (nbrs n m s0)) as [H|H]; [exact H|].
      rewrite B1 in Vp; [|apply Mp|exact H]. destruct (V0 p); [apply Mp|exact Vp].
    + intros p q [<-|[]] Iq A. apply A1; auto. apply nbrs_in; auto.
    + intros p Hp. destruct (in_dec prod_eq_dec_nat p (nbrs n m s0)) as [H|H]; [left; apply A1; auto|right; apply B1; auto].
  - cbn [b_vis]. pose proof (unv_le vis). lia.
  - exists rest, (b_vis s). split; [rewrite E, <- (v_ids _ _ _ J); f_equal; destruct s as [v1 v2 v3]; cbn [b_next] in EN; rewrite EN; reflexivity|].
    split; [apply J|]. split; [apply (v_old _ _ _ J)|].
    pose proof (v_nd _ _ _ J) as ND. rewrite EN in ND. cbn [app] in ND. rewrite app_nil_r in ND. split; [exact ND|].
    assert (ALL : forall p, M p -> val 0 (b_vis s) p = c -> In p rest).
    { intros p Mp Vp. pose proof (v_all _ _ _ J p Mp Vp) as H. rewrite EN in H. cbn [app] in H. rewrite app_nil_r in H. exact H. }
    assert (CM : forall q, conn M s0 q -> In q (s0 :: rest)).
    { intros q H. induction H as [|q r H IH A Mr]; [left; reflexivity|]. right. apply ALL; [exact Mr|].
      apply (v_cl _ _ _ J q r); auto. apply Mr. }
    intros p. split.
    + intros Hp. split; [eapply rest_conn; [exact J|right; exact Hp]|].
      destruct (v_in _ _ _ J p) as (_ & _ & W); [apply in_app_iff; left; exact Hp|exact W].
    + intros (Cp & q & Cq & A). apply ALL; [apply conn_P in Cp; tauto|].
      apply (v_cl _ _ _ J q p); auto. apply conn_P in Cp. destruct Cp as (_ & Ip & _). exact Ip.
Qed.
End Seed.
End One.

(* the number of pixels given to the function *)
Lemma rest_length (P : nat * nat -> Prop) s0 rest l : P s0 ->
  NoDup rest -> (forall p, In p rest <-> conn P s0 p /\ exists q, conn P s0 q /\ adj q p) ->
  lists_pixels (conn P s0) l -> 1 + length rest = if length l =? 1 then 1 else length l + 1.
Proof.
  intros P0 ND HR (NL & HL).
  assert (H0 : In s0 l) by (apply HL, conn_refl; exact P0).
  destruct (Nat.eqb_spec (length l) 1) as [E|E].
  - destruct l as [|a [|b l]]; try (cbn in E; lia). destruct H0 as [->|[]].
    destruct rest as [|p rest]; [reflexivity|]. exfalso.
    destruct (proj1 (HR p) (or_introl eq_refl)) as (Cp & q & Cq & A). apply HL in Cp, Cq.
    destruct Cp as [<-|[]], Cq as [<-|[]]. exact (adj_neq _ _ A eq_refl).
  - assert (PR : Permutation rest l); [|apply Permutation_length in PR; lia].
    apply NoDup_Permutation; auto. intros p. rewrite HR, HL. split; [tauto|]. intros Cp. split; [exact Cp|].
    assert (LAST : forall a b, conn P a b -> a <> b -> exists q, conn P a q /\ adj q b).
    { intros a b H N. destruct H as [|q r H A Pr]; [contradiction|]. exists q. auto. }
    destruct (prod_eq_dec_nat s0 p) as [<-|N]; [|apply LAST; assumption].
    assert (exists r, In r l /\ r <> s0).
    { destruct l as [|a [|b l]]; [destruct H0|cbn in E; lia|].
      destruct (prod_eq_dec_nat a s0) as [->|Na]; [|exists a; split; [left; reflexivity|exact Na]].
      exists b. split; [right; left; reflexivity|]. intros ->. inversion NL as [|? ? N1 _]. apply N1. left. reflexivity. }
    destruct H as (r & Hr & Nr). apply HL in Hr. destruct (LAST r s0 (conn_sym _ _ _ Hr) Nr) as (q & Cq & A).
    exists q. split; [|exact A]. eapply conn_trans; eauto.
Qed.

Lemma one_ok sm vis mid s0 : length sm = n * m -> length vis = n * m -> ing s0 -> mid = pos s0 ->
  (forall p, ing p -> val 0 vis p <> val 0 sm s0) ->
  exists rest vis', one_segment n m sm vis mid = Ok (mid :: map pos rest, vis') /\ length vis' = n * m /\
    (forall p, ing p -> val 0 vis' p = val 0 sm s0 \/ val 0 vis' p = val 0 vis p) /\
    NoDup rest /\ forall p, In p rest <-> conn (M sm (val 0 sm s0)) s0 p /\ exists q, conn (M sm (val 0 sm s0)) s0 q /\ adj q p.
Proof.
  intros L1 L2 I0 -> HV. unfold one_segment. pose proof (ing_pos n m s0 I0) as LP.
  unfold check. rewrite (proj2 (Nat.ltb_lt (pos s0) (length sm))) by lia. cbn [obind].
  rewrite (oget_val n m 0) by auto. cbn [obind].
  assert (EM : mult_ids [n; m] (pos s0) = Ok [fst s0; snd s0]) by (apply mult_ids_2; apply I0).
  rewrite EM. cbn [obind oget nth_error]. replace (fst s0, snd s0) with s0 by (destruct s0; reflexivity).
  destruct (seed_ok sm (val 0 sm s0) L1 s0 I0 eq_refl vis L2 HV) as (rest & vis' & E & L' & V' & ND & HR).
  rewrite E. cbn [obind b_ids b_vis]. exists rest, vis'. auto.
Qed.

(* the whole loop *)
Lemma segments_ok sm : length sm = n * m -> forall seeds, (forall p, In p seeds -> ing p /\ val 0 sm p <> 0) ->
  NoDup (map (val 0 sm) seeds) ->
  exists rests, segments n m sm (map pos seeds) = Ok (map (fun pr => pos (fst pr) :: map pos (snd pr)) (combine seeds rests)) /\
    length rests = length seeds /\
    Forall2 (fun s0 rest => NoDup rest /\
      forall p, In p rest <-> conn (M sm (val 0 sm s0)) s0 p /\ exists q, conn (M sm (val 0 sm s0)) s0 q /\ adj q p) seeds rests.
Proof.
  intros L seeds. unfold segments.
  assert (G : forall seeds acc vis, (forall p, In p seeds -> ing p /\ val 0 sm p <> 0) -> NoDup (map (val 0 sm) seeds) ->
    length vis = n * m -> (forall p s, ing p -> In s seeds -> val 0 vis p <> val 0 sm s) ->
    exists rests vis', ofold (fun '(l, vis) mid => '(ids, vis) <- one_segment n m sm vis mid ;; Ok (l ++ [ids], vis)) (map pos seeds) (acc, vis)
      = Ok (acc ++ map (fun pr => pos (fst pr) :: map pos (snd pr)) (combine seeds rests), vis') /\
    length rests = length seeds /\
    Forall2 (fun s0 rest => NoDup rest /\
      forall p, In p rest <-> conn (M sm (val 0 sm s0)) s0 p /\ exists q, conn (M sm (val 0 sm s0)) s0 q /\ adj q p) seeds rests).
  { clear seeds. induction seeds as [|s seeds IH]; intros acc vis HS ND LV HV.
    - exists [], vis. cbn. rewrite app_nil_r. auto.
    - cbn [map] in ND. inversion ND as [|? ? N1 N2]; subst.
      destruct (one_ok sm vis (pos s) s L LV) as (rest & vis1 & E1 & L1 & V1 & NR & HR); auto.
      { apply HS. left. reflexivity. }
      { intros p Hp. apply HV; [exact Hp|left; reflexivity]. }
      destruct (IH (acc ++ [pos s :: map pos rest]) vis1) as (rests & vis' & E' & L' & F'); auto.
      { intros p Hp. apply HS. right. exact Hp. }
      { intros p t Hp Ht. destruct (V1 p Hp) as [H|H]; rewrite H.
        - intro C. apply N1. rewrite C. apply in_map. exact Ht.
        - apply HV; [exact Hp|right; exact Ht]. }
      exists (rest :: rests), vis'. cbn [map ofold]. rewrite E1. cbn [obind]. rewrite E'.
      split; [rewrite <- app_assoc; reflexivity|]. split; [cbn; lia|]. constructor; auto. }
  intros HS ND. destruct (G seeds [] (repeat 0 (n * m)) HS ND) as (rests & vis' & E & LR & F).
  - apply repeat_length.
  - intros p s Hp Hs. destruct (HS s Hs) as (_ & N).
    assert (Z : val 0 (repeat 0 (n * m)) p = 0).
    { unfold SegProofs.val. generalize (SegProofs.pos m p) (n * m). clear. intros i k. revert i.
      induction k as [|k IH]; intros [|i]; cbn; auto. }
    rewrite Z. congruence.
  - exists rests. rewrite E. cbn [obind app]. auto.
Qed.
End Bfs.
