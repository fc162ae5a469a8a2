(* Lemmas on the expansion of segments, part 1: the growth. *)
From Coq Require Import NArith ZifyBool ZifyNat.
From Verif Require Import Base IndexModel IndexProofs VecModel VecProofs ImageModel ImageSpec ImageProofs
  SegModel SegSpec SegProofs SdistModel SdistSpec.
Local Open Scope nat_scope.

Lemma squares_zero a b : (a * a + b * b = 0 -> a = 0 /\ b = 0)%Z.
Proof. intro H. pose proof (Z.square_nonneg a). pose proof (Z.square_nonneg b). split; apply Z.eq_square_0; lia. Qed.
Lemma dist2_nonneg p q : (0 <= dist2 p q)%Z.
Proof. unfold dist2. cbv zeta. generalize (Z.of_nat (fst p) - Z.of_nat (fst q))%Z (Z.of_nat (snd p) - Z.of_nat (snd q))%Z. intros. nia. Qed.
Lemma dist2_zero p q : dist2 p q = 0%Z -> p = q.
Proof.
  destruct p as [a b], q as [c d]. unfold dist2. cbn [fst snd]. intro H.
  apply squares_zero in H. f_equal; lia.
Qed.
Lemma dist2_self p : dist2 p p = 0%Z.
Proof. unfold dist2. rewrite !Z.sub_diag. reflexivity. Qed.
Lemma adj_dist p q : adj p q -> dist2 q p = 1%Z.
Proof.
  unfold adj, dist2. generalize (Z.of_nat (fst p)) (Z.of_nat (snd p)) (Z.of_nat (fst q)) (Z.of_nat (snd q)).
  intros a b c d H. assert ((a - c = 0 /\ (b - d = 1 \/ b - d = -1)) \/ (b - d = 0 /\ (a - c = 1 \/ a - c = -1)))%Z by lia. nia.
Qed.
(* one more step adds at most one to the distance *)
Lemma step_bound p q o k : (0 <= k)%Z -> adj p q -> (dist2 p o <= k * k)%Z -> (dist2 q o <= (k + 1) * (k + 1))%Z.
Proof.
  unfold adj, dist2. generalize (Z.of_nat (fst p)) (Z.of_nat (snd p)) (Z.of_nat (fst q)) (Z.of_nat (snd q)) (Z.of_nat (fst o)) (Z.of_nat (snd o)).
  intros a b c d e f Hk A H.
  assert (X : forall u v, (0 <= k -> u * u + v * v <= k * k -> Z.abs u <= k)%Z).
  { intros u v K L. assert (u * u <= k * k)%Z by nia. assert (Z.abs u * Z.abs u <= k * k)%Z by nia. nia. }
  assert ((c = a /\ (d = b + 1 \/ d = b - 1)) \/ (d = b /\ (c = a + 1 \/ c = a - 1)))%Z as [[-> B]|[-> B]] by lia.
  - pose proof (X (b - f)%Z (a - e)%Z Hk ltac:(lia)) as Y. destruct B as [-> | ->]; nia.
  - pose proof (X (a - e)%Z (b - f)%Z Hk ltac:(lia)) as Y. destruct B as [-> | ->]; nia.
Qed.

Section Grid.
Context (n m : nat) (map0 : list nat) (L0 : length map0 = n * m).
Notation ing := (ing n m).
Notation pos := (pos m).
Notation vm := (val m 0).
Notation vd := (val m (@None Z)).
Notation vi := (val m (@None nat)).
(* the pixels of the original segments *)
Definition seg0 (p : point) : Prop := ing p /\ vm map0 p <> 0.

Lemma div_pos q : ing q -> pos q / m = fst q /\ pos q mod m = snd q.
Proof.
  intros (A & B). unfold SegProofs.pos. split.
  - rewrite Nat.div_add_l by lia. rewrite Nat.div_small by lia. lia.
  - rewrite Nat.add_comm, Nat.mod_add by lia. apply Nat.mod_small. lia.
Qed.
Lemma sqdist_pos q t : ing q -> sqdist m (pos q) (fst t) (snd t) = dist2 t q.
Proof. intros I. unfold sqdist. destruct (div_pos q I) as [-> ->]. reflexivity. Qed.
Lemma dist2_bound p q : ing p -> ing q -> (dist2 p q < Z.of_nat (n * n + m * m))%Z.
Proof.
  unfold SegProofs.ing, dist2. destruct p as [a b], q as [c d]. cbn [fst snd]. intros [A B] [C D].
  assert ((Z.of_nat a - Z.of_nat c) * (Z.of_nat a - Z.of_nat c) < Z.of_nat n * Z.of_nat n)%Z by nia.
  assert ((Z.of_nat b - Z.of_nat d) * (Z.of_nat b - Z.of_nat d) < Z.of_nat m * Z.of_nat m)%Z by nia. lia.
Qed.

(* what the three arrays mean *)
Record core (mp : list nat) (d : list (option Z)) (i : list (option nat)) : Prop := {
  c_lm : length mp = n * m; c_ld : length d = n * m; c_li : length i = n * m;
  c_pix : forall p, ing p ->
    (vd d p = None /\ vi i p = None /\ vm mp p = vm map0 p) \/
    (exists q, seg0 q /\ vi i p = Some (pos q) /\ vd d p = Some (dist2 p q) /\
       exists q', seg0 q' /\ vm mp p = vm map0 q');
  c_seg : forall p, seg0 p -> vm mp p = vm map0 p }.

(* the neighbour q of p is at most as far as from the source of p *)
Definition sat (d : list (option Z)) (i : list (option nat)) (p q : point) : Prop :=
  exists o z, seg0 o /\ vi i p = Some (pos o) /\ vd d q = Some z /\ (z <= dist2 q o)%Z.
Definition settled (d : list (option Z)) (i : list (option nat)) (L : point -> Prop) : Prop :=
  forall p, ing p -> vd d p <> None -> L p \/ forall q, ing q -> adj p q -> sat d i p q.

(* potential: the sum of the distances, where infinity counts as more than any of them *)
Definition weight (o : option Z) : nat := match o with None => n * n + m * m | Some z => Z.to_nat z end.
Definition pot (d : list (option Z)) : nat := fold_right (fun o s => weight o + s) 0 d.
Lemma pot_upd d k o o' : nth_error d k = Some o -> pot (upd d k o') + weight o = pot d + weight o'.
Proof.
  revert k. induction d as [|a d IH]; intros [|k] E; cbn in E; try discriminate.
  - injection E as ->. unfold pot. cbn [upd fold_right]. lia.
  - specialize (IH k E). unfold pot in *. cbn [upd fold_right]. lia.
Qed.

(* after an update of q; everything else is as before *)
Record growing (s s' : grow) : Prop := {
  gr_core : core (g_map s') (g_d s') (g_i s');
  gr_zero : forall p, ing p -> vd (g_d s) p = Some 0%Z -> vd (g_d s') p = Some 0%Z;
  gr_some : forall p, ing p -> vd (g_d s) p <> None -> vd (g_d s') p <> None;
  gr_less : forall p z, ing p -> vd (g_d s) p = Some z -> exists z', vd (g_d s') p = Some z' /\ (z' <= z)%Z;
  gr_new : forall p, In p (g_new s) -> In p (g_new s');
  gr_ing : (forall p, In p (g_new s) -> ing p /\ vd (g_d s) p <> None) ->
    forall p, In p (g_new s') -> ing p /\ vd (g_d s') p <> None;
  gr_sat : forall p q, ing p -> ing q -> sat (g_d s) (g_i s) p q -> In p (g_new s') \/ sat (g_d s') (g_i s') p q;
  gr_fresh : forall p, ing p -> vd (g_d s') p <> None -> vd (g_d s) p <> None \/ In p (g_new s');
  gr_pot : pot (g_d s') + length (g_new s') <= pot (g_d s) + length (g_new s) }.

Lemma growing_refl s : core (g_map s) (g_d s) (g_i s) -> growing s s.
Proof. intro C. constructor; auto. intros p z _ E. exists z. split; [exact E|lia]. Qed.
Lemma growing_trans s1 s2 s3 : growing s1 s2 -> growing s2 s3 -> growing s1 s3.
Proof.
  intros A B. constructor.
  - exact (gr_core _ _ B).
  - intros p I H. apply (gr_zero _ _ B p I), (gr_zero _ _ A p I H).
  - intros p I H. apply (gr_some _ _ B p I), (gr_some _ _ A p I H).
  - intros p z I H. destruct (gr_less _ _ A p z I H) as (z1 & E1 & L1). destruct (gr_less _ _ B p z1 I E1) as (z2 & E2 & L2). exists z2. split; [exact E2|lia].
  - intros p H. apply (gr_new _ _ B), (gr_new _ _ A), H.
  - intros H. apply (gr_ing _ _ B), (gr_ing _ _ A), H.
  - intros p q Ip Iq H. destruct (gr_sat _ _ A p q Ip Iq H) as [H1|H1].
    + left. apply (gr_new _ _ B), H1.
    + exact (gr_sat _ _ B p q Ip Iq H1).
  - intros p I H. destruct (gr_fresh _ _ B p I H) as [H1|H1]; [|right; exact H1].
    destruct (gr_fresh _ _ A p I H1) as [H2|H2]; [left; exact H2|right; apply (gr_new _ _ B), H2].
  - pose proof (gr_pot _ _ A). pose proof (gr_pot _ _ B). lia.
Qed.

Definition is_id (id : nat) : Prop := exists q, seg0 q /\ id = vm map0 q.

Lemma grow_add_ok id p s q : core (g_map s) (g_d s) (g_i s) -> is_id id -> ing p -> ing q -> adj p q ->
  vd (g_d s) p <> None -> (forall t, seg0 t -> vd (g_d s) t = Some 0%Z) ->
  exists s', grow_add m id p s q = Ok s' /\ growing s s' /\ vd (g_d s') p = vd (g_d s) p /\ vi (g_i s') p = vi (g_i s) p /\
    sat (g_d s') (g_i s') p q.
Proof.
  intros C Hid Ip Iq A Hp Z0. pose proof C as [LM LD LI CP CS].
  destruct (CP p Ip) as [(E & _)|(o & So & Ei & Ed & _)]; [contradiction|].
  assert (Nqp : q <> p) by (apply not_eq_sym, adj_neq, A).
  unfold grow_add. destruct p as [ty tx] eqn:Ep, q as [tty ttx] eqn:Eq. rewrite <- Ep, <- Eq in *.
  replace (ty * m + tx) with (pos p) by (rewrite Ep; reflexivity).
  unfold pset. replace (tty * m + ttx) with (pos q) by (rewrite Eq; reflexivity).
  rewrite (oget_val n m None (g_i s) p LI Ip), Ei. cbn [obind].
  rewrite (oget_val n m None (g_d s) q LD Iq). cbn [obind].
  assert (Es : sqdist m (pos o) tty ttx = dist2 q o).
  { replace tty with (fst q) by (rewrite Eq; reflexivity). replace ttx with (snd q) by (rewrite Eq; reflexivity).
    apply sqdist_pos. exact (proj1 So). }
  rewrite Es. destruct (farther (vd (g_d s) q) (dist2 q o)) eqn:F.
  - rewrite (oset_ok n m (g_map s) q id LM Iq). cbn [obind].
    rewrite (oset_ok n m (g_i s) q _ LI Iq). cbn [obind].
    rewrite (oset_ok n m (g_d s) q _ LD Iq). cbn [obind].
    set (mp := upd (g_map s) (pos q) id). set (i := upd (g_i s) (pos q) (Some (pos o))). set (d := upd (g_d s) (pos q) (Some (dist2 q o))).
    assert (Vd : forall t, ing t -> t <> q -> vd d t = vd (g_d s) t) by (intros t It N; apply (val_upd_other n m); auto).
    assert (Vi : forall t, ing t -> t <> q -> vi i t = vi (g_i s) t) by (intros t It N; apply (val_upd_other n m); auto).
    assert (Vm : forall t, ing t -> t <> q -> vm mp t = vm (g_map s) t) by (intros t It N; apply (val_upd_other n m); auto).
    assert (Vdq : vd d q = Some (dist2 q o)) by (apply (val_upd_same n m); auto).
    assert (Viq : vi i q = Some (pos o)) by (apply (val_upd_same n m); auto).
    assert (Vmq : vm mp q = id) by (apply (val_upd_same n m); auto).
    assert (Nz : ~ seg0 q).
    { intro Sq. rewrite (Z0 q Sq) in F. cbn in F. pose proof (dist2_nonneg q o). lia. }
    eexists. split; [reflexivity|]. split; [|split; [apply Vd; auto|split; [cbn [g_i]; rewrite <- Ei; apply Vi; auto|]]].
    + constructor; cbn [g_map g_d g_i g_new].
      * constructor.
        -- unfold mp. rewrite upd_length. exact LM.
        -- unfold d. rewrite upd_length. exact LD.
        -- unfold i. rewrite upd_length. exact LI.
        -- intros t It. destruct (prod_eq_dec_nat t q) as [->|N].
           ++ right. exists o. rewrite Vdq, Viq, Vmq. auto.
           ++ rewrite Vd, Vi, Vm by auto. apply CP. exact It.
        -- intros t St. rewrite Vm; [apply CS; exact St|exact (proj1 St)|]. intros ->. contradiction.
      * intros t It Ht. destruct (prod_eq_dec_nat t q) as [->|N]; [|rewrite Vd; auto].
        rewrite Ht in F. cbn in F. pose proof (dist2_nonneg q o). lia.
      * intros t It Ht. destruct (prod_eq_dec_nat t q) as [->|N]; [rewrite Vdq; discriminate|rewrite Vd; auto].
      * intros t z It Ht. destruct (prod_eq_dec_nat t q) as [->|N].
        -- exists (dist2 q o). split; [exact Vdq|]. rewrite Ht in F. cbn in F. lia.
        -- exists z. rewrite Vd by auto. split; [exact Ht|lia].
      * intros t Ht. right. exact Ht.
      * intros H t [<-|Ht]; [split; [exact Iq|rewrite Vdq; discriminate]|]. destruct (H t Ht) as [It Nt]. split; [exact It|].
        destruct (prod_eq_dec_nat t q) as [->|N]; [rewrite Vdq; discriminate|rewrite Vd; auto].
      * intros t u It Iu (o' & z & So' & Ei' & Ed' & Hz). destruct (prod_eq_dec_nat t q) as [->|N]; [left; left; reflexivity|].
        right. destruct (prod_eq_dec_nat u q) as [->|N'].
        -- exists o', (dist2 q o). rewrite Vi, Vdq by auto. split; [exact So'|]. split; [exact Ei'|]. split; [reflexivity|].
           rewrite Ed' in F. cbn in F. lia.
        -- exists o', z. rewrite Vi, Vd by auto. auto.
      * intros t It Ht. destruct (prod_eq_dec_nat t q) as [->|N]; [right; left; reflexivity|]. rewrite Vd in Ht by auto. left. exact Ht.
      * assert (P := pot_upd (g_d s) (pos q) (vd (g_d s) q) (Some (dist2 q o)) (nth_error_val n m None (g_d s) q LD Iq)).
        fold d in P. cbn [length]. pose proof (dist2_nonneg q o). pose proof (dist2_bound q o Iq (proj1 So)).
        destruct (vd (g_d s) q) as [z|] eqn:Ez; cbn [weight farther] in P, F; lia.
    + exists o, (dist2 q o). cbn [g_d g_i]. rewrite Vi by auto. split; [exact So|]. split; [exact Ei|]. split; [exact Vdq|lia].
  - exists s. split; [reflexivity|]. split; [apply growing_refl; exact C|]. split; [reflexivity|]. split; [exact Ei|].
    destruct (vd (g_d s) q) as [z|] eqn:Ez; [|discriminate]. exists o, z. cbn in F.
    split; [exact So|]. split; [exact Ei|]. split; [exact Ez|lia].
Qed.

Lemma grow_adds_ok id p l : is_id id -> ing p -> (forall q, In q l -> ing q /\ adj p q) -> forall s,
  core (g_map s) (g_d s) (g_i s) -> vd (g_d s) p <> None -> (forall t, seg0 t -> vd (g_d s) t = Some 0%Z) ->
  exists s', ofold (grow_add m id p) l s = Ok s' /\ growing s s' /\ vd (g_d s') p = vd (g_d s) p /\ vi (g_i s') p = vi (g_i s) p /\
    forall q, In q l -> sat (g_d s') (g_i s') p q.
Proof.
  intros Hid Ip. induction l as [|q l IH]; intros Hl s C Hp Z0.
  - exists s. split; [reflexivity|]. split; [apply growing_refl; exact C|]. split; [reflexivity|]. split; [reflexivity|]. intros q [].
  - destruct (Hl q (or_introl eq_refl)) as [Iq Aq].
    destruct (grow_add_ok id p s q C Hid Ip Iq Aq Hp Z0) as (s1 & E1 & G1 & D1 & I1 & S1).
    destruct (IH (fun r Hr => Hl r (or_intror Hr)) s1 (gr_core _ _ G1)) as (s2 & E2 & G2 & D2 & I2 & S2).
    + rewrite D1. exact Hp.
    + intros t St. apply (gr_zero _ _ G1 t (proj1 St)), Z0, St.
    + exists s2. cbn [ofold]. rewrite E1. cbn [obind]. split; [exact E2|]. split; [apply (growing_trans _ _ _ G1 G2)|].
      split; [congruence|]. split; [congruence|]. intros r [<-|Hr]; [|apply S2; exact Hr].
      (* the source of p has not changed, and q can only have come nearer *)
      destruct S1 as (o & z & So & Ei & Ed & Hz).
      destruct (gr_less _ _ G2 q z Iq Ed) as (z' & X1 & X2).
      exists o, z'. split; [exact So|]. split; [congruence|]. split; [exact X1|lia].
Qed.

Lemma grow_point_ok id p s : is_id id -> ing p ->
  core (g_map s) (g_d s) (g_i s) -> vd (g_d s) p <> None -> (forall t, seg0 t -> vd (g_d s) t = Some 0%Z) ->
  exists s', grow_point n m id s p = Ok s' /\ growing s s' /\ forall q, ing q -> adj p q -> sat (g_d s') (g_i s') p q.
Proof.
  intros Hid Ip C Hp Z0. unfold grow_point.
  destruct (grow_adds_ok id p (nbrs n m p) Hid Ip (fun q Hq => proj1 (nbrs_in n m p q Ip) Hq) s C Hp Z0) as (s' & E & G & _ & _ & S).
  exists s'. split; [exact E|]. split; [exact G|]. intros q Iq A. apply S. apply nbrs_in; auto.
Qed.

(* the points of one state *)
Lemma grow_points_ok id pts : is_id id -> forall s (L : point -> Prop),
  (forall p, In p pts -> ing p /\ vd (g_d s) p <> None) ->
  core (g_map s) (g_d s) (g_i s) -> (forall t, seg0 t -> vd (g_d s) t = Some 0%Z) ->
  settled (g_d s) (g_i s) (fun p => In p pts \/ In p (g_new s) \/ L p) ->
  exists s', ofold (grow_point n m id) pts s = Ok s' /\ growing s s' /\
    settled (g_d s') (g_i s') (fun p => In p (g_new s') \/ L p).
Proof.
  intro Hid. induction pts as [|p pts IH]; intros s L Hpts C Z0 St.
  - exists s. split; [reflexivity|]. split; [apply growing_refl; exact C|].
    intros q Iq Hq. destruct (St q Iq Hq) as [[[]|H]|H]; [left; exact H|right; exact H].
  - destruct (Hpts p (or_introl eq_refl)) as [Ip Hp].
    destruct (grow_point_ok id p s Hid Ip C Hp Z0) as (s1 & E1 & G1 & S1).
    destruct (IH s1 L) as (s2 & E2 & G2 & S2).
    + intros q Hq. destruct (Hpts q (or_intror Hq)) as [Iq Nq]. split; [exact Iq|apply (gr_some _ _ G1 q Iq Nq)].
    + exact (gr_core _ _ G1).
    + intros t Ht. apply (gr_zero _ _ G1 t (proj1 Ht)), Z0, Ht.
    + intros q Iq Hq. destruct (gr_fresh _ _ G1 q Iq Hq) as [Hq'|Hq']; [|left; right; left; exact Hq'].
      destruct (St q Iq Hq') as [[[<-|H]|[H|H]]|H].
      * right. exact S1.
      * left. left. exact H.
      * left. right. left. apply (gr_new _ _ G1), H.
      * left. right. right. exact H.
      * destruct (in_dec prod_eq_dec_nat q (g_new s1)) as [Hn|Hn]; [left; right; left; exact Hn|].
        right. intros r Ir A. destruct (gr_sat _ _ G1 q r Iq Ir (H r Ir A)) as [X|X]; [contradiction|exact X].
    + exists s2. cbn [ofold]. rewrite E1. cbn [obind]. split; [exact E2|]. split; [apply (growing_trans _ _ _ G1 G2)|exact S2].
Qed.

Definition listed (sts : list (nat * list point)) (p : point) : Prop := exists st, In st sts /\ In p (snd st).
Definition points (sts : list (nat * list point)) : nat := fold_right (fun st k => length (snd st) + k) 0 sts.
Definition good (d : list (option Z)) (sts : list (nat * list point)) : Prop :=
  forall st, In st sts -> is_id (fst st) /\ forall p, In p (snd st) -> ing p /\ vd d p <> None.


Lemma turn_ok : forall sts s (L : point -> Prop), good (g_d s) sts ->
  core (g_map s) (g_d s) (g_i s) -> (forall t, seg0 t -> vd (g_d s) t = Some 0%Z) ->
  settled (g_d s) (g_i s) (fun p => listed sts p \/ L p) ->
  exists sts' s', turn n m sts s = Ok (sts', s') /\ core (g_map s') (g_d s') (g_i s') /\
    (forall t, seg0 t -> vd (g_d s') t = Some 0%Z) /\ good (g_d s') sts' /\
    settled (g_d s') (g_i s') (fun p => listed sts' p \/ L p) /\
    (forall p, ing p -> vd (g_d s) p <> None -> vd (g_d s') p <> None) /\
    pot (g_d s') + points sts' <= pot (g_d s).
Proof.
  induction sts as [|[id pts] sts IH]; intros s L Hg C Z0 St.
  - exists [], s. split; [reflexivity|]. split; [exact C|]. split; [exact Z0|]. split; [intros st []|].
    split; [exact St|]. split; [auto|]. cbn [points fold_right]. lia.
  - destruct (Hg (id, pts) (or_introl eq_refl)) as [Hid Hpts]. cbn [fst snd] in Hid, Hpts.
    set (s0 := Grow (g_map s) (g_d s) (g_i s) []).
    destruct (grow_points_ok id pts Hid s0 (fun p => listed sts p \/ L p)) as (s1 & E1 & G1 & S1).
    + exact Hpts.
    + exact C.
    + exact Z0.
    + intros q Iq Hq. destruct (St q Iq Hq) as [[(st & [<-|Hst] & Hin)|H]|H].
      * left. left. exact Hin.
      * left. right. right. left. exists st. auto.
      * left. right. right. right. exact H.
      * right. exact H.
    + destruct (IH s1 (fun p => In p (g_new s1) \/ L p)) as (sts' & s' & E2 & C2 & Z2 & Hg2 & S2 & M2 & P2).
      * intros st Hst. destruct (Hg st (or_intror Hst)) as [A B]. split; [exact A|].
        intros p Hp. destruct (B p Hp) as [Ip Np]. split; [exact Ip|apply (gr_some _ _ G1 p Ip Np)].
      * exact (gr_core _ _ G1).
      * intros t Ht. apply (gr_zero _ _ G1 t (proj1 Ht)), Z0, Ht.
      * intros q Iq Hq. destruct (S1 q Iq Hq) as [[H|[H|H]]|H].
        -- left. right. left. exact H.
        -- left. left. exact H.
        -- left. right. right. exact H.
        -- right. exact H.
      * exists ((id, g_new s1) :: sts'), s'. cbn [turn]. fold s0. rewrite E1. cbn [obind]. rewrite E2. cbn [obind].
        split; [reflexivity|]. split; [exact C2|]. split; [exact Z2|]. split; [|split; [|split]].
        -- intros st [<-|Hst]; [|apply Hg2; exact Hst]. cbn [fst snd]. split; [exact Hid|].
           intros p Hp. destruct (gr_ing _ _ G1 ltac:(intros ? []) p Hp) as [Ip Np]. split; [exact Ip|apply M2; assumption].
        -- intros q Iq Hq. destruct (S2 q Iq Hq) as [[(st & Hst & Hin)|[H|H]]|H].
           ++ left. left. exists st. split; [right; exact Hst|exact Hin].
           ++ left. left. exists (id, g_new s1). split; [left; reflexivity|exact H].
           ++ left. right. exact H.
           ++ right. exact H.
        -- intros p Ip Np. apply M2; [exact Ip|]. apply (gr_some _ _ G1 p Ip Np).
        -- pose proof (gr_pot _ _ G1) as P1. cbn [g_new g_d s0 length] in P1. unfold points in *. cbn [fold_right snd]. lia.
Qed.

Lemma starved_points sts : starved sts = true <-> points sts = 0.
Proof.
  unfold starved, points. induction sts as [|[id [|p pts]] sts IH]; cbn [forallb fold_right snd length]; [tauto| |].
  - rewrite andb_true_l. exact IH.
  - split; [discriminate|lia].
Qed.
Lemma starved_listed sts p : starved sts = true -> ~ listed sts p.
Proof.
  intros H (st & Hst & Hp). unfold starved in H. rewrite forallb_forall in H. specialize (H st Hst).
  destruct (snd st); [contradiction|discriminate].
Qed.
(* the loop ends with nothing left to do *)
Lemma grow_loop_ok : forall fuel sts s, good (g_d s) sts -> core (g_map s) (g_d s) (g_i s) ->
  (forall t, seg0 t -> vd (g_d s) t = Some 0%Z) -> settled (g_d s) (g_i s) (listed sts) ->
  starved sts = true \/ pot (g_d s) < fuel ->
  exists s', grow_loop n m fuel sts s = Ok s' /\ core (g_map s') (g_d s') (g_i s') /\
    (forall t, seg0 t -> vd (g_d s') t = Some 0%Z) /\ settled (g_d s') (g_i s') (fun _ => False).
Proof.
  induction fuel as [|fuel IH]; intros sts s Hg C Z0 St F.
  - destruct F as [F|F]; [|lia]. exists s. cbn [grow_loop]. rewrite F. split; [reflexivity|]. split; [exact C|]. split; [exact Z0|].
    intros p Ip Hp. destruct (St p Ip Hp) as [H|H]; [exfalso; exact (starved_listed _ _ F H)|right; exact H].
  - cbn [grow_loop]. destruct (starved sts) eqn:E.
    + exists s. split; [reflexivity|]. split; [exact C|]. split; [exact Z0|].
      intros p Ip Hp. destruct (St p Ip Hp) as [H|H]; [exfalso; exact (starved_listed _ _ E H)|right; exact H].
    + destruct F as [F|F]; [discriminate|].
      destruct (turn_ok sts s (fun _ => False) Hg C Z0) as (sts' & s' & E2 & C2 & Z2 & Hg2 & S2 & M2 & P2).
      { intros p Ip Hp. destruct (St p Ip Hp) as [H|H]; [left; left; exact H|right; exact H]. }
      rewrite E2. cbn [obind]. apply IH; [exact Hg2|exact C2|exact Z2| |].
      * intros p Ip Hp. destruct (S2 p Ip Hp) as [[H|[]]|H]; [left; exact H|right; exact H].
      * destruct (starved sts') eqn:E3; [left; reflexivity|right].
        assert (points sts' <> 0) by (intro X; apply starved_points in X; congruence). lia.
Qed.

Lemma pot_bound mp d i : core mp d i -> pot d <= (n * m) * (n * n + m * m).
Proof.
  intros C. rewrite <- (c_ld _ _ _ C).
  assert (W : forall o, In o d -> weight o <= n * n + m * m).
  { intros o Ho. apply In_nth_error in Ho. destruct Ho as [k Hk].
    assert (Lk : k < n * m) by (rewrite <- (c_ld _ _ _ C); apply nth_error_Some; congruence).
    destruct (pos_inv n m k Lk) as (y & x & Hy & Hx & ->).
    assert (I : ing (y, x)) by (split; assumption).
    assert (V := nth_error_val n m None d (y, x) (c_ld _ _ _ C) I). change (pos (y, x)) with (y * m + x) in V.
    rewrite Hk in V. injection V as ->. destruct (c_pix _ _ _ C (y, x) I) as [(-> & _)|(q & Sq & _ & -> & _)]; cbn [weight]; [lia|].
    pose proof (dist2_bound (y, x) q I (proj1 Sq)). lia. }
  clear C. induction d as [|a d IH]; [cbn; lia|]. unfold pot in *. cbn [fold_right length Nat.mul].
  assert (weight a <= n * n + m * m) by (apply W; left; reflexivity).
  assert (fold_right (fun o s => weight o + s) 0 d <= length d * (n * n + m * m)) by (apply IH; intros o Ho; apply W; right; exact Ho). lia.
Qed.

(* ---- what the final arrays mean ---- *)
Lemma reach k : forall p s mp d i, core mp d i -> settled d i (fun _ => False) -> (forall t, seg0 t -> vd d t = Some 0%Z) ->
  ing p -> seg0 s -> steps p s = Z.of_nat k -> exists z, vd d p = Some z /\ (z <= Z.of_nat k * Z.of_nat k)%Z.
Proof.
  induction k as [|k IH]; intros p s mp d i C St Z0 Ip Ss Hk.
  - assert (p = s) as ->.
    { destruct p as [a b], s as [c e]. unfold steps in Hk. cbn [fst snd] in Hk. f_equal; lia. }
    exists 0%Z. split; [apply Z0; exact Ss|lia].
  - assert (X : exists p', ing p' /\ adj p' p /\ steps p' s = Z.of_nat k).
    { destruct p as [a b], s as [c e]. destruct Ip as [I1 I2]. destruct Ss as [[I3 I4] _]. unfold steps, SegProofs.ing, adj in *. cbn [fst snd] in *.
      destruct (Nat.lt_trichotomy a c) as [H|[H|H]].
      - exists (S a, b). cbn [fst snd]. lia.
      - destruct (Nat.lt_trichotomy b e) as [H'|[H'|H']].
        + exists (a, S b). cbn [fst snd]. lia.
        + exfalso. lia.
        + exists (a, b - 1). cbn [fst snd]. lia.
      - exists (a - 1, b). cbn [fst snd]. lia. }
    destruct X as (p' & Ip' & A & Hk'). destruct (IH p' s mp d i C St Z0 Ip' Ss Hk') as (z & Ez & Hz).
    destruct (St p' Ip') as [[]|H]; [rewrite Ez; discriminate|].
    destruct (H p Ip A) as (o & z' & So & Eo & Ez' & Hz'). exists z'. split; [exact Ez'|].
    destruct (c_pix _ _ _ C p' Ip') as [(E & _)|(q & Sq & Eq & Ed & _)]; [congruence|].
    rewrite Eo in Eq. injection Eq as Eq. apply (pos_eq n m) in Eq; [|exact (proj1 So)|exact (proj1 Sq)]. subst q.
    assert (z = dist2 p' o) by congruence. subst z.
    pose proof (step_bound p' p o (Z.of_nat k) ltac:(lia) A Hz). lia.
Qed.
End Grid.
