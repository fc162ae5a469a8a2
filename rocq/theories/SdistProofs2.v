(* Lemmas on the expansion of segments, part 2: the initial states. *)
From Coq Require Import NArith ZifyBool ZifyNat.
From Verif Require Import Base IndexModel IndexProofs VecModel VecProofs ImageModel ImageSpec ImageProofs
  SegModel SegSpec SegProofs SdistModel SdistSpec SdistProofs.
Local Open Scope nat_scope.

Definition nzn (d : list nat) : nat := length (filter (fun a => negb (a =? 0)) d).
Lemma nzn_le d : nzn d <= length d.
Proof. unfold nzn. induction d as [|a d IH]; cbn [filter length]; [lia|]. destruct (negb (a =? 0)); cbn [length]; lia. Qed.
Lemma nzn_upd : forall d i a, nth_error d i = Some a -> a <> 0 -> S (nzn (upd d i 0)) = nzn d.
Proof.
  unfold nzn. induction d as [|b d IH]; intros [|i] a E Ha; cbn in E; try discriminate.
  - injection E as ->. cbn [upd filter]. destruct (Nat.eqb_spec a 0); [contradiction|]. reflexivity.
  - specialize (IH i a E Ha). cbn [upd filter]. destruct (negb (b =? 0)); cbn [length]; lia.
Qed.

Section Grid.
Context (n m : nat) (map0 : list nat) (L0 : length map0 = n * m).
Notation ing := (ing n m).
Notation pos := (pos m).
Notation vm := (val m 0).
Notation vd := (val m (@None Z)).
Notation vi := (val m (@None nat)).
Notation seg0 := (seg0 n m map0).
Notation core := (core n m map0).

(* everything but the order of the stack; [ex] are visited points whose neighbours may be missing *)
Record weak (L : point -> Prop) (ex : point -> Prop) (s : flood) : Prop := {
  w_core : core (f_map s) (f_d s) (f_i s);
  w_lo : length (f_omap s) = n * m;
  w_omap : forall p, ing p -> (vm (f_omap s) p = 0 /\ (seg0 p -> vd (f_d s) p = Some 0%Z)) \/
             (vm (f_omap s) p = vm map0 p /\ vm map0 p <> 0 /\ vd (f_d s) p = None);
  w_nb : forall p q, seg0 p -> vd (f_d s) p = Some 0%Z -> ~ ex p -> ing q -> adj p q -> seg0 q \/ vd (f_d s) q <> None;
  w_seed : forall p, ing p -> ~ seg0 p -> vd (f_d s) p <> None -> L p \/ In p (f_seeds s);
  w_one : forall p z, ing p -> vd (f_d s) p = Some z -> (z <= 1)%Z;
  w_good : forall p, In p (f_seeds s) -> ing p /\ vd (f_d s) p <> None }.

(* the arrays only gain values *)
Definition more (d d' : list (option Z)) : Prop :=
  forall p, ing p -> (vd d p <> None -> vd d' p <> None) /\ (vd d p = Some 0%Z -> vd d' p = Some 0%Z).

Lemma seg0_dec p : ing p -> seg0 p \/ ~ seg0 p.
Proof. intro I. unfold SdistProofs.seg0. destruct (Nat.eq_dec (vm map0 p) 0) as [E|E]; [right; tauto|left; tauto]. Qed.

Lemma flood_add_ok L ex id p q s : weak L ex s -> seg0 p -> vm map0 p = id -> ing q -> adj p q ->
  exists s', flood_add m id p s q = Ok s' /\ weak L ex s' /\ f_omap s' = f_omap s /\
    f_stack s' = (if vm (f_omap s) q =? id then [q] else []) ++ f_stack s /\
    (seg0 q \/ vd (f_d s') q <> None) /\ more (f_d s) (f_d s').
Proof.
  intros W Sp Hid Iq A. pose proof W as [C LO OM NB SD ON GD]. pose proof C as [LM LD LI CP CS].
  assert (Hid0 : id <> 0) by (rewrite <- Hid; exact (proj2 Sp)).
  unfold flood_add. destruct p as [ty tx] eqn:Ep, q as [tty ttx] eqn:Eq. rewrite <- Ep, <- Eq in *.
  replace (ty * m + tx) with (pos p) by (rewrite Ep; reflexivity).
  unfold pset. replace (tty * m + ttx) with (pos q) by (rewrite Eq; reflexivity).
  rewrite (oget_val n m 0 (f_omap s) q LO Iq). cbn [obind].
  destruct (Nat.eqb_spec (vm (f_omap s) q) id) as [E|E].
  - eexists. split; [reflexivity|]. split; [constructor; assumption|]. split; [reflexivity|]. split; [reflexivity|].
    split; [|intros t _; split; auto]. left. split; [exact Iq|].
    destruct (OM q Iq) as [(E0 & _)|(E0 & N0 & _)]; [congruence|exact N0].
  - rewrite (oget_val n m 0 (f_map s) q LM Iq). cbn [obind].
    destruct (Nat.eqb_spec (vm (f_map s) q) 0) as [E0|E0].
    + assert (Nq : ~ seg0 q) by (intro Sq; apply (proj2 Sq); rewrite <- (CS q Sq); exact E0).
      assert (Dq : vd (f_d s) q = None).
      { destruct (CP q Iq) as [(X & _)|(o & So & _ & _ & q' & Sq' & X)]; [exact X|]. exfalso. apply (proj2 Sq'). congruence. }
      rewrite (oset_ok n m (f_map s) q id LM Iq). cbn [obind].
      rewrite (oset_ok n m (f_d s) q _ LD Iq). cbn [obind].
      rewrite (oset_ok n m (f_i s) q _ LI Iq). cbn [obind].
      set (mp := upd (f_map s) (pos q) id). set (i := upd (f_i s) (pos q) (Some (pos p))). set (d := upd (f_d s) (pos q) (Some 1%Z)).
      assert (Vd : forall t, ing t -> t <> q -> vd d t = vd (f_d s) t) by (intros t It N; apply (val_upd_other n m); auto).
      assert (Vi : forall t, ing t -> t <> q -> vi i t = vi (f_i s) t) by (intros t It N; apply (val_upd_other n m); auto).
      assert (Vm : forall t, ing t -> t <> q -> vm mp t = vm (f_map s) t) by (intros t It N; apply (val_upd_other n m); auto).
      assert (Vdq : vd d q = Some 1%Z) by (apply (val_upd_same n m); auto).
      assert (Viq : vi i q = Some (pos p)) by (apply (val_upd_same n m); auto).
      assert (Vmq : vm mp q = id) by (apply (val_upd_same n m); auto).
      assert (MO : more (f_d s) d).
      { intros t It. destruct (prod_eq_dec_nat t q) as [->|N]; [rewrite Vdq, Dq; split; [discriminate|discriminate]|rewrite Vd by auto; auto]. }
      eexists. split; [reflexivity|]. cbn [f_map f_omap f_d f_i f_stack f_seeds].
      split; [|split; [reflexivity|split; [reflexivity|split; [right; rewrite Vdq; discriminate|exact MO]]]].
      constructor; cbn [f_map f_omap f_d f_i f_stack f_seeds].
      * constructor.
        -- unfold mp. rewrite upd_length. exact LM.
        -- unfold d. rewrite upd_length. exact LD.
        -- unfold i. rewrite upd_length. exact LI.
        -- intros t It. destruct (prod_eq_dec_nat t q) as [->|N].
           ++ right. exists p. rewrite Vdq, Viq, Vmq. split; [exact Sp|]. split; [reflexivity|].
              rewrite (adj_dist p q A). split; [reflexivity|]. exists p. auto.
           ++ rewrite Vd, Vi, Vm by auto. apply CP. exact It.
        -- intros t St. rewrite Vm; [apply CS; exact St|exact (proj1 St)|]. intros ->. contradiction.
      * exact LO.
      * intros t It. destruct (prod_eq_dec_nat t q) as [->|N]; [|rewrite Vd by auto; apply OM; exact It].
        destruct (OM q Iq) as [(X & _)|(_ & X & _)].
        -- left. split; [exact X|]. intro. contradiction.
        -- exfalso. apply Nq. split; assumption.
      * intros t u St Dt Ex Iu At. destruct (prod_eq_dec_nat t q) as [->|N]; [contradiction|].
        rewrite Vd in Dt by (auto; exact (proj1 St)). destruct (NB t u St Dt Ex Iu At) as [X|X]; [left; exact X|right; apply MO; auto].
      * intros t It Nt Dt. destruct (prod_eq_dec_nat t q) as [->|N]; [right; left; reflexivity|].
        rewrite Vd in Dt by auto. destruct (SD t It Nt Dt) as [X|X]; [left; exact X|right; right; exact X].
      * intros t z It Dt. destruct (prod_eq_dec_nat t q) as [->|N]; [rewrite Vdq in Dt; injection Dt as <-; lia|].
        rewrite Vd in Dt by auto. apply (ON t z It Dt).
      * intros t [<-|Ht]; [split; [exact Iq|rewrite Vdq; discriminate]|]. destruct (GD t Ht) as [It Dt]. split; [exact It|apply MO; auto].
    + exists s. split; [reflexivity|]. split; [exact W|]. split; [reflexivity|]. split; [reflexivity|].
      split; [|intros t _; split; auto].
      destruct (CP q Iq) as [(_ & _ & X)|(o & So & _ & X & _)]; [left; split; [exact Iq|congruence]|right; rewrite X; discriminate].
Qed.

Lemma more_trans d1 d2 d3 : more d1 d2 -> more d2 d3 -> more d1 d3.
Proof. intros A B p I. destruct (A p I), (B p I). split; auto. Qed.

Lemma flood_adds_ok L ex id p : seg0 p -> vm map0 p = id -> forall l s, weak L ex s -> (forall q, In q l -> ing q /\ adj p q) ->
  exists s', ofold (flood_add m id p) l s = Ok s' /\ weak L ex s' /\ f_omap s' = f_omap s /\
    f_stack s' = rev (filter (fun q => vm (f_omap s) q =? id) l) ++ f_stack s /\
    (forall q, In q l -> seg0 q \/ vd (f_d s') q <> None) /\ more (f_d s) (f_d s').
Proof.
  intros Sp Hid. induction l as [|q l IH]; intros s W Hl.
  - exists s. split; [reflexivity|]. split; [exact W|]. split; [reflexivity|]. split; [reflexivity|]. split; [intros q []|intros t _; split; auto].
  - destruct (Hl q (or_introl eq_refl)) as [Iq A].
    destruct (flood_add_ok L ex id p q s W Sp Hid Iq A) as (s1 & E1 & W1 & O1 & K1 & N1 & M1).
    destruct (IH s1 W1 (fun r Hr => Hl r (or_intror Hr))) as (s2 & E2 & W2 & O2 & K2 & N2 & M2).
    exists s2. cbn [ofold]. rewrite E1. cbn [obind]. split; [exact E2|]. split; [exact W2|]. split; [congruence|]. split.
    + rewrite K2, K1, O1. cbn [filter]. destruct (vm (f_omap s) q =? id); cbn [rev app]; [rewrite <- app_assoc|]; reflexivity.
    + split; [|apply (more_trans _ _ _ M1 M2)]. intros r [<-|Hr]; [|apply N2; exact Hr].
      destruct N1 as [X|X]; [left; exact X|right; apply M2; auto].
Qed.

(* the stack only holds points of the segment, and neighbours of finished points come before them *)
Record full (L : point -> Prop) (id : nat) (s : flood) : Prop := {
  u_weak : weak L (fun _ => False) s;
  u_st : forall p, In p (f_stack s) -> ing p /\ vm map0 p = id;
  u_or : forall a p b, f_stack s = a ++ p :: b -> vm (f_omap s) p <> id -> forall q, ing q -> adj p q -> vm (f_omap s) q = id -> In q a }.

Lemma flood_point_ok L id p st s : id <> 0 -> full L id s -> f_stack s = p :: st ->
  exists s', flood_point n m id (Flood (f_map s) (f_omap s) (f_d s) (f_i s) st (f_seeds s)) p = Ok s' /\
    full L id s' /\ vd (f_d s') p = Some 0%Z /\ more (f_d s) (f_d s') /\
    4 * nzn (f_omap s') + length (f_stack s') < 4 * nzn (f_omap s) + length (f_stack s).
Proof.
  intros Hid [W ST OR] Est. pose proof W as [C LO OM NB SD ON GD]. pose proof C as [LM LD LI CP CS].
  destruct (ST p ltac:(rewrite Est; left; reflexivity)) as [Ip Mp].
  assert (Sp : seg0 p) by (split; [exact Ip|congruence]).
  unfold flood_point. destruct p as [ty tx] eqn:Ep. rewrite <- Ep in *. cbn [f_map f_omap f_d f_i f_stack f_seeds].
  unfold pset. replace (ty * m + tx) with (pos p) by (rewrite Ep; reflexivity).
  rewrite (oset_ok n m (f_omap s) p 0 LO Ip). cbn [obind].
  rewrite (oset_ok n m (f_d s) p _ LD Ip). cbn [obind].
  rewrite (oset_ok n m (f_i s) p _ LI Ip). cbn [obind].
  set (om := upd (f_omap s) (pos p) 0). set (i := upd (f_i s) (pos p) (Some (pos p))). set (d := upd (f_d s) (pos p) (Some 0%Z)).
  assert (Vd : forall t, ing t -> t <> p -> vd d t = vd (f_d s) t) by (intros t It N; apply (val_upd_other n m); auto).
  assert (Vi : forall t, ing t -> t <> p -> vi i t = vi (f_i s) t) by (intros t It N; apply (val_upd_other n m); auto).
  assert (Vo : forall t, ing t -> t <> p -> vm om t = vm (f_omap s) t) by (intros t It N; apply (val_upd_other n m); auto).
  assert (Vdp : vd d p = Some 0%Z) by (apply (val_upd_same n m); auto).
  assert (Vip : vi i p = Some (pos p)) by (apply (val_upd_same n m); auto).
  assert (Vop : vm om p = 0) by (apply (val_upd_same n m); auto).
  assert (MO : more (f_d s) d).
  { intros t It. destruct (prod_eq_dec_nat t p) as [->|N]; [rewrite Vdp; split; [discriminate|reflexivity]|rewrite Vd by auto; auto]. }
  assert (W1 : weak L (fun t => t = p) (Flood (f_map s) om d i st (f_seeds s))).
  { constructor; cbn [f_map f_omap f_d f_i f_stack f_seeds].
    - constructor.
      + exact LM.
      + unfold d. rewrite upd_length. exact LD.
      + unfold i. rewrite upd_length. exact LI.
      + intros t It. destruct (prod_eq_dec_nat t p) as [->|N].
        * right. exists p. rewrite Vdp, Vip, dist2_self. split; [exact Sp|]. split; [reflexivity|]. split; [reflexivity|].
          exists p. split; [exact Sp|apply CS; exact Sp].
        * rewrite Vd, Vi by auto. apply CP. exact It.
      + exact CS.
    - unfold om. rewrite upd_length. exact LO.
    - intros t It. destruct (prod_eq_dec_nat t p) as [->|N]; [left; split; [exact Vop|intros _; exact Vdp]|].
      rewrite Vo, Vd by auto. apply OM. exact It.
    - intros t u St Dt Ex Iu At. rewrite Vd in Dt by (auto; exact (proj1 St)).
      destruct (NB t u St Dt ltac:(tauto) Iu At) as [X|X]; [left; exact X|right; apply MO; auto].
    - intros t It Nt Dt. destruct (prod_eq_dec_nat t p) as [->|N]; [contradiction|]. rewrite Vd in Dt by auto. apply SD; auto.
    - intros t z It Dt. destruct (prod_eq_dec_nat t p) as [->|N]; [rewrite Vdp in Dt; injection Dt as <-; lia|].
      rewrite Vd in Dt by auto. apply (ON t z It Dt).
    - intros t Ht. destruct (GD t Ht) as [It Dt]. split; [exact It|apply MO; auto]. }
  destruct (flood_adds_ok L (fun t => t = p) id p Sp Mp (nbrs n m p) _ W1 (fun q Hq => proj1 (nbrs_in n m p q Ip) Hq))
    as (s' & E & W2 & O2 & K2 & N2 & M2). cbn [f_omap f_stack f_d] in O2, K2, M2.
  set (new := filter (fun q => vm om q =? id) (nbrs n m p)) in *.
  assert (NW : forall q, In q new <-> ing q /\ adj p q /\ vm (f_omap s) q = id).
  { intros q. unfold new. rewrite filter_In, nbrs_in by exact Ip. split.
    - intros ((Iq & A) & V). rewrite Vo in V; [|exact Iq|apply not_eq_sym, adj_neq, A]. apply Nat.eqb_eq in V. auto.
    - intros (Iq & A & V). split; [auto|]. rewrite Vo; [apply Nat.eqb_eq; exact V|exact Iq|apply not_eq_sym, adj_neq, A]. }
  exists s'. split; [exact E|]. split; [|split; [apply M2; auto|split; [apply (more_trans _ _ _ MO M2)|]]].
  - constructor.
    + destruct W2 as [C2 LO2 OM2 NB2 SD2 ON2 GD2]. constructor; auto.
      intros t u St Dt _ Iu At. destruct (prod_eq_dec_nat t p) as [->|N].
      * apply N2. apply nbrs_in; auto.
      * apply (NB2 t u); auto.
    + intros t Ht. rewrite K2 in Ht. apply in_app_iff in Ht. destruct Ht as [Ht|Ht].
      * rewrite <- in_rev in Ht. apply NW in Ht. destruct Ht as (It & A & V). split; [exact It|].
        destruct (OM t It) as [(X & _)|(X & _)]; congruence.
      * apply ST. rewrite Est. right. exact Ht.
    + intros a t b Eab Nt q Iq A V. rewrite K2 in Eab. rewrite O2 in Nt, V.
      assert (Nqp : q <> p) by (intros ->; congruence). rewrite Vo in V by auto.
      apply app_split_cases in Eab. destruct Eab as [(c & Ec & Ec')|(c & Ec & Ec')].
      * (* in the new part *)
        destruct c as [|t' c].
        -- cbn [app] in Ec'. rewrite app_nil_r in Ec. destruct (prod_eq_dec_nat t p) as [->|N].
           ++ rewrite <- Ec, <- in_rev. apply NW. auto.
           ++ assert (It : ing t) by (apply ST; rewrite Est, Ec'; right; left; reflexivity).
              rewrite Vo in Nt by auto.
              assert (X := OR [p] t b ltac:(rewrite Est, Ec'; reflexivity) Nt q Iq A V). destruct X as [X|[]]. congruence.
        -- exfalso. cbn [app] in Ec'. injection Ec' as -> _.
           assert (Ht : In t new) by (rewrite in_rev, Ec; apply in_app_iff; right; left; reflexivity).
           apply NW in Ht. destruct Ht as (It & At & Vt). apply Nt. rewrite Vo; [exact Vt|exact It|apply not_eq_sym, adj_neq, At].
      * rewrite Ec. apply in_app_iff. destruct (prod_eq_dec_nat t p) as [->|N].
        -- left. rewrite <- in_rev. apply NW. auto.
        -- right. assert (It : ing t) by (apply ST; rewrite Est, Ec'; right; apply in_app_iff; right; left; reflexivity).
           rewrite Vo in Nt by auto.
           assert (X := OR (p :: c) t b ltac:(rewrite Est, Ec'; reflexivity) Nt q Iq A V). destruct X as [X|X]; [congruence|exact X].
  - rewrite O2, K2, app_length, rev_length, Est. cbn [length].
    assert (NL : length new <= 4).
    { unfold new. pose proof (nbrs_length n m p). revert H. generalize (nbrs n m p). clear.
      intros l H. assert (length (filter (fun q => vm om q =? id) l) <= length l); [|lia].
      clear H. induction l as [|a l IH]; cbn [filter length]; [lia|]. destruct (vm om a =? id); cbn [length]; lia. }
    destruct (Nat.eq_dec (vm (f_omap s) p) id) as [V|V].
    + assert (S (nzn om) = nzn (f_omap s)); [|lia].
      apply (nzn_upd (f_omap s) (pos p) id); [rewrite (nth_error_val n m 0) by auto; congruence|exact Hid].
    + assert (N0 : new = []).
      { destruct new as [|q new'] eqn:En; [reflexivity|]. exfalso.
        destruct (proj1 (NW q) ltac:(left; reflexivity)) as (Iq & A & Vq).
        exact (OR [] p st Est V q Iq A Vq). }
      rewrite N0. cbn [length].
      assert (om = f_omap s).
      { unfold om. apply upd_same_val. rewrite (nth_error_val n m 0) by auto.
        destruct (OM p Ip) as [(X & _)|(X & _)]; congruence. }
      rewrite H. lia.
Qed.

Lemma flood_loop_ok L id : id <> 0 -> forall fuel s, full L id s -> 4 * nzn (f_omap s) + length (f_stack s) <= fuel ->
  exists s', flood_loop n m id fuel s = Ok s' /\ full L id s' /\ f_stack s' = [] /\ more (f_d s) (f_d s').
Proof.
  intro Hid. induction fuel as [|fuel IH]; intros s F B; destruct (f_stack s) as [|p st] eqn:E.
  - exists s. cbn [flood_loop]. rewrite E. split; [reflexivity|]. split; [exact F|]. split; [reflexivity|intros t _; split; auto].
  - cbn [length] in B. lia.
  - exists s. cbn [flood_loop]. rewrite E. split; [reflexivity|]. split; [exact F|]. split; [reflexivity|intros t _; split; auto].
  - destruct (flood_point_ok L id p st s Hid F E) as (s1 & E1 & F1 & _ & M1 & P1).
    destruct (IH s1 F1) as (s2 & E2 & F2 & K2 & M2); [rewrite E in P1; lia|].
    exists s2. cbn [flood_loop]. rewrite E, E1. cbn [obind]. split; [exact E2|]. split; [exact F2|]. split; [exact K2|].
    apply (more_trans _ _ _ M1 M2).
Qed.

(* ---- the loop over the pixels ---- *)
Record ready (s : setup) : Prop := {
  r_weak : weak (listed (u_states s)) (fun _ => False) (Flood (u_map s) (u_omap s) (u_d s) (u_i s) [] []);
  r_good : good n m map0 (u_d s) (u_states s) }.

Lemma visit_ok s p : ready s -> ing p ->
  exists s', visit n m s p = Ok s' /\ ready s' /\ more (u_d s) (u_d s') /\ (seg0 p -> vd (u_d s') p = Some 0%Z).
Proof.
  intros [W G] Ip. pose proof W as [C LO OM NB SD ON GD]. cbn [f_map f_omap f_d f_i f_seeds] in *.
  unfold visit. destruct p as [y x] eqn:Ep. rewrite <- Ep in *. replace (y * m + x) with (pos p) by (rewrite Ep; reflexivity).
  rewrite (oget_val n m 0 (u_omap s) p LO Ip). cbn [obind].
  destruct (Nat.eqb_spec (vm (u_omap s) p) 0) as [E|E].
  - exists s. split; [reflexivity|]. split; [constructor; assumption|]. split; [intros t _; split; auto|].
    intros Sp. destruct (OM p Ip) as [(_ & X)|(X & Y & _)]; [apply X; exact Sp|congruence].
  - destruct (OM p Ip) as [(X & _)|(X & Y & Z)]; [contradiction|].
    assert (Sp : seg0 p) by (split; assumption).
    rewrite (oget_val n m 0 (u_map s) p (c_lm _ _ _ _ _ _ C) Ip). cbn [obind]. rewrite (c_seg _ _ _ _ _ _ C p Sp).
    set (id := vm map0 p). 
    assert (F0 : full (listed (u_states s)) id (Flood (u_map s) (u_omap s) (u_d s) (u_i s) [p] [])).
    { constructor.
      - destruct W as [C' LO' OM' NB' SD' ON' GD']. constructor; auto.
      - intros t [<-|[]]. split; [exact Ip|reflexivity].
      - intros a t b Et Nt. cbn [f_stack f_omap] in *. destruct a as [|a' a]; [|destruct a; discriminate].
        injection Et as <- <-. exfalso. apply Nt. exact X. }
    destruct (flood_point_ok _ id p [] _ Y F0 eq_refl) as (s1 & E1 & F1 & D1 & M1 & P1).
    cbn [f_map f_omap f_d f_i f_seeds f_stack] in E1, M1, P1.
    destruct (flood_loop_ok _ id Y (4 * (n * m) + 4) s1 F1) as (s2 & E2 & F2 & K2 & M2).
    { pose proof (nzn_le (u_omap s)). rewrite LO in H. cbn [length] in P1. lia. }
    rewrite E1. cbn [obind]. rewrite E2. cbn [obind]. eexists. split; [reflexivity|]. cbn [u_d].
    pose proof (more_trans _ _ _ M1 M2) as M. split; [|split; [exact M|intros _; apply M2; auto]].
    destruct F2 as [[C2 LO2 OM2 NB2 SD2 ON2 GD2] _ _]. constructor; cbn [u_map u_omap u_d u_i u_states].
    + constructor; cbn [f_map f_omap f_d f_i f_seeds]; auto.
      * intros t It Nt Dt. left. destruct (SD2 t It Nt Dt) as [(st & Hst & Hin)|H].
        -- exists st. split; [apply in_app_iff; left; exact Hst|exact Hin].
        -- exists (id, f_seeds s2). split; [apply in_app_iff; right; left; reflexivity|exact H].
      * intros t [].
    + intros st Hst. apply in_app_iff in Hst. destruct Hst as [Hst|[<-|[]]].
      * destruct (G st Hst) as [A B]. split; [exact A|]. intros t Ht. destruct (B t Ht) as [It Dt]. split; [exact It|apply M; auto].
      * cbn [fst snd]. split; [exists p; split; [exact Sp|reflexivity]|exact GD2].
Qed.

Lemma visits_ok : forall l s, ready s -> (forall p, In p l -> ing p) ->
  exists s', ofold (visit n m) l s = Ok s' /\ ready s' /\ more (u_d s) (u_d s') /\
    forall p, In p l -> seg0 p -> vd (u_d s') p = Some 0%Z.
Proof.
  induction l as [|p l IH]; intros s R Hl.
  - exists s. split; [reflexivity|]. split; [exact R|]. split; [intros t _; split; auto|intros p []].
  - destruct (visit_ok s p R (Hl p (or_introl eq_refl))) as (s1 & E1 & R1 & M1 & D1).
    destruct (IH s1 R1 (fun q Hq => Hl q (or_intror Hq))) as (s2 & E2 & R2 & M2 & D2).
    exists s2. cbn [ofold]. rewrite E1. cbn [obind]. split; [exact E2|]. split; [exact R2|]. split; [apply (more_trans _ _ _ M1 M2)|].
    intros q [<-|Hq] Sq; [apply M2; [exact (proj1 Sq)|apply D1; exact Sq]|apply D2; auto].
Qed.

Lemma val_repeat {A} (a : A) p : val m a (repeat a (n * m)) p = a.
Proof. unfold val. apply nth_repeat. Qed.

Lemma start_ready : ready (Setup map0 map0 (repeat None (n * m)) (repeat None (n * m)) []).
Proof.
  constructor; cbn [u_map u_omap u_d u_i u_states]; [|intros st []].
  constructor; cbn [f_map f_omap f_d f_i f_seeds].
  - constructor; try (apply repeat_length); auto.
    intros p Ip. left. rewrite !val_repeat. auto.
  - exact L0.
  - intros p Ip. rewrite val_repeat. destruct (Nat.eq_dec (vm map0 p) 0) as [E|E]; [left|right; auto].
    split; [exact E|]. intros [_ X]. contradiction.
  - intros p q _ D. rewrite val_repeat in D. discriminate.
  - intros p _ _ D. rewrite val_repeat in D. contradiction.
  - intros p z _ D. rewrite val_repeat in D. discriminate.
  - intros p [].
Qed.

Lemma ready_settled s : ready s -> (forall p, seg0 p -> vd (u_d s) p = Some 0%Z) ->
  settled n m map0 (u_d s) (u_i s) (listed (u_states s)).
Proof.
  intros [[C LO OM NB SD ON GD] G] Z0 p Ip Dp. cbn [f_map f_omap f_d f_i f_seeds] in *.
  destruct (seg0_dec p Ip) as [Sp|Np].
  - right. intros q Iq A.
    destruct (c_pix _ _ _ _ _ _ C p Ip) as [(E & _)|(o & So & Ei & Ed & _)]; [rewrite E in Dp; contradiction|].
    rewrite (Z0 p Sp) in Ed. injection Ed as Ed. symmetry in Ed. apply dist2_zero in Ed. subst o.
    assert (X : exists z, vd (u_d s) q = Some z /\ (z <= 1)%Z).
    { destruct (NB p q Sp (Z0 p Sp) ltac:(tauto) Iq A) as [X|X].
      - exists 0%Z. split; [apply Z0; exact X|lia].
      - destruct (vd (u_d s) q) as [z|] eqn:E; [|contradiction]. exists z. split; [reflexivity|apply (ON q z Iq E)]. }
    destruct X as (z & Ez & Hz). exists p, z. split; [exact So|]. split; [exact Ei|]. split; [exact Ez|]. rewrite (adj_dist p q A). exact Hz.
  - left. destruct (SD p Ip Np Dp) as [X|[]]. exact X.
Qed.

Lemma distance_ok : fits n m ->
  exists mp d i, segment_distance (Img n m map0) = Ok (Img n m mp, Img n m d, Img n m i) /\ core mp d i /\
    (forall t, seg0 t -> vd d t = Some 0%Z) /\ settled n m map0 d i (fun _ => False).
Proof.
  intro F. unfold segment_distance. cbn [nr nc pix]. rewrite !filled_ok by exact F. cbn [obind pix].
  destruct (visits_ok (grid n m) _ start_ready) as (u & E & R & _ & D).
  { intros [y x] H. apply in_grid in H. exact H. }
  rewrite E. cbn [obind].
  assert (Z0 : forall p, seg0 p -> vd (u_d u) p = Some 0%Z).
  { intros [y x] Sp. apply D; [|exact Sp]. apply in_grid. exact (proj1 Sp). }
  destruct (grow_loop_ok n m map0 L0 ((n * m) * (n * n + m * m) + 1) (u_states u) (Grow (u_map u) (u_d u) (u_i u) [])) as (s & E2 & C2 & Z2 & S2).
  - exact (r_good _ R).
  - exact (w_core _ _ _ (r_weak _ R)).
  - exact Z0.
  - apply ready_settled; assumption.
  - right. cbn [g_d]. pose proof (pot_bound n m map0 L0 _ _ _ (w_core _ _ _ (r_weak _ R))) as P. cbn [f_d] in P. lia.
  - rewrite E2. cbn [obind]. exists (g_map s), (g_d s), (g_i s). auto.
Qed.
End Grid.
