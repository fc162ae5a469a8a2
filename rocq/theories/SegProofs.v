(* Lemmas on segmentation, part 1: the exploration of one segment. *)
From Coq Require Import NArith ZifyBool ZifyNat Permutation.
From Verif Require Import Base IndexModel IndexProofs VecModel VecProofs VecProofs2 ImageModel ImageSpec ImageProofs
  ImageProofs2 ImageProofs3 SegModel SegSpec.

Lemma adj_sym p q : adj p q -> adj q p.
Proof. unfold adj. lia. Qed.
Lemma adj_neq p q : adj p q -> p <> q.
Proof. unfold adj. intros H ->. lia. Qed.
Lemma before_total p q : p <> q -> before p q \/ before q p.
Proof. destruct p as [a b], q as [c d]. unfold before. cbn [fst snd]. intros H.
  destruct (Nat.eq_dec a c), (Nat.eq_dec b d); subst; try lia. contradiction. Qed.
Lemma before_irrefl p : ~ before p p.
Proof. unfold before. lia. Qed.
Lemma before_asym p q : before p q -> ~ before q p.
Proof. unfold before. lia. Qed.

Lemma conn_P P p q : conn P p q -> P p /\ P q.
Proof. induction 1 as [|q r H [IH1 IH2] A]; auto. Qed.
Lemma conn_trans P p q r : conn P p q -> conn P q r -> conn P p r.
Proof. intros H1 H2. induction H2 as [|r s H2 IH A Hs]; auto. eapply conn_step; eauto. Qed.
Lemma conn_sym P p q : conn P p q -> conn P q p.
Proof.
  intros H. induction H as [H|q r H IH A Hr]; [now apply conn_refl|].
  apply conn_trans with q; [|exact IH]. eapply conn_step; [apply conn_refl; exact Hr|apply adj_sym; exact A|].
  apply conn_P in H. tauto.
Qed.
Lemma conn_mono (P Q : nat * nat -> Prop) p q : (forall x, P x -> Q x) -> conn P p q -> conn Q p q.
Proof. intros M H. induction H; [apply conn_refl; auto|]. eapply conn_step; eauto. Qed.

Lemma prod_eq_dec_nat (p q : nat * nat) : {p = q} + {p <> q}.
Proof. decide equality; apply Nat.eq_dec. Qed.
Lemma app_split_cases {A} : forall (u v a b : list A), u ++ v = a ++ b ->
  (exists c, u = a ++ c /\ c ++ v = b) \/ (exists c, a = u ++ c /\ v = c ++ b).
Proof.
  induction u as [|x u IH]; intros v a b E.
  - right. exists a. auto.
  - destruct a as [|y a].
    + left. exists (x :: u). auto.
    + cbn in E. injection E as -> E. destruct (IH v a b E) as [(c & -> & C)|(c & -> & C)]; [left|right]; exists c; auto.
Qed.

Section Grid.
Context (n m : nat).
Definition ing (p : nat * nat) : Prop := fst p < n /\ snd p < m.
Definition pos (p : nat * nat) : nat := fst p * m + snd p.
Definition val {A} (dflt : A) (d : list A) (p : nat * nat) : A := nth (pos p) d dflt.

Lemma ing_pos p : ing p -> pos p < n * m.
Proof. intros (A & B). apply pos_lt; assumption. Qed.
Lemma pos_eq p q : ing p -> ing q -> pos p = pos q -> p = q.
Proof.
  destruct p as [a b], q as [c d]. intros (A & B) (C & D) E. unfold pos in E. cbn [fst snd] in *.
  apply pos_inj in E; auto. destruct E; congruence.
Qed.
Lemma oget_val {A} (dflt : A) d p : length d = n * m -> ing p -> oget d (pos p) = Ok (val dflt d p).
Proof.
  intros L I. apply ing_pos in I. unfold oget, val. destruct (nth_error d (pos p)) eqn:E.
  - now rewrite (nth_error_nth _ _ _ E).
  - apply nth_error_None in E. lia.
Qed.
Lemma val_upd_same {A} (dflt : A) d p a : length d = n * m -> ing p -> val dflt (upd d (pos p) a) p = a.
Proof.
  intros L I. apply ing_pos in I. unfold val. apply nth_error_nth. apply nth_error_upd_same. lia.
Qed.
Lemma val_upd_other {A} (dflt : A) d p q a : ing p -> ing q -> p <> q -> val dflt (upd d (pos p) a) q = val dflt d q.
Proof.
  intros I J N. unfold val. assert (pos p <> pos q) by (intro C; apply N; apply pos_eq; auto).
  revert H. generalize (pos p) (pos q). intros i j. revert i j. induction d as [|b d IH]; intros [|i] [|j] H; cbn; auto; try lia.
Qed.
Lemma oset_ok {A} (d : list A) p a : length d = n * m -> ing p -> oset d (pos p) a = Ok (upd d (pos p) a).
Proof. intros L I. apply ing_pos in I. unfold oset. destruct (Nat.ltb_spec (pos p) (length d)); [reflexivity|lia]. Qed.

Lemma nbrs_in p q : ing p -> In q (nbrs n m p) <-> ing q /\ adj p q.
Proof.
  destruct p as [y x], q as [a b]. intros (Hy & Hx). cbn [fst snd] in *. unfold nbrs.
  assert (N1 : nsub64 n 1 = n - 1) by (unfold nsub64; destruct (Nat.leb_spec 1 n); lia).
  assert (N2 : nsub64 m 1 = m - 1) by (unfold nsub64; destruct (Nat.leb_spec 1 m); lia). rewrite N1, N2.
  unfold ing, adj. cbn [fst snd]. rewrite !in_app_iff.
  assert (In1 : forall (b : bool) (p q : nat * nat), In q (if b then [] else [p]) <-> b = false /\ fst q = fst p /\ snd q = snd p).
  { intros [|] [c d] [e f]; cbn; split; intros H; try tauto; try (destruct H; discriminate).
    - destruct H as [H|[]]. injection H; auto.
    - destruct H as (_ & -> & ->). auto. }
  rewrite !In1. cbn [fst snd]. lia.
Qed.
Lemma nbrs_nodup p : NoDup (nbrs n m p).
Proof.
  destruct p as [y x]. unfold nbrs.
  destruct (Nat.eqb_spec y 0), (Nat.eqb_spec x 0), (y =? nsub64 n 1), (x =? nsub64 m 1); cbn [app];
    repeat (apply NoDup_cons; [cbn; intro C; repeat (destruct C as [C|C]; [injection C; lia|]); exact C|]); apply NoDup_nil.
Qed.
Lemma nbrs_length p : length (nbrs n m p) <= 4.
Proof.
  destruct p as [y x]. unfold nbrs.
  destruct (y =? 0), (x =? 0), (y =? nsub64 n 1), (x =? nsub64 m 1); cbn; lia.
Qed.

Definition nz (d : list bool) : nat := length (filter (fun b => b) d).
Lemma nz_le d : nz d <= length d.
Proof. unfold nz. induction d as [|[|] d IH]; cbn; lia. Qed.
Lemma nz_upd : forall d i, nth_error d i = Some true -> S (nz (upd d i false)) = nz d.
Proof.
  unfold nz. induction d as [|b d IH]; intros [|i] E; cbn in E; try discriminate.
  - injection E as ->. reflexivity.
  - specialize (IH _ E). cbn. destruct b; cbn; lia.
Qed.
Lemma upd_same_val {A} : forall (d : list A) i a, nth_error d i = Some a -> upd d i a = d.
Proof. induction d as [|b d IH]; intros [|i] a E; cbn in *; try discriminate; [congruence|]. f_equal. auto. Qed.
Lemma nth_error_val {A} (dflt : A) d p : length d = n * m -> ing p -> nth_error d (pos p) = Some (val dflt d p).
Proof.
  intros L I. pose proof (oget_val dflt d p L I) as E. unfold oget in E. destruct (nth_error d (pos p)); congruence.
Qed.

(* ---- one point ---- *)
Notation cur s := (val false (d_map s)).
Notation lb s := (val 0 (d_smap s)).

Lemma pushes_ok : forall l s, length (d_map s) = n * m -> (forall q, In q l -> ing q) ->
  (Z.of_nat (d_area s + length l) < two64)%Z ->
  exists sx sy, ofold (fun s q =>
      let '(tty, ttx) := q in
      b <- oget (d_map s) (tty * m + ttx) ;;
      Ok (if b : bool
          then Dfs (d_map s) (d_smap s) (q :: d_stack s) (nwrap (d_area s + 1)) (d_sx s + ttx) (d_sy s + tty)
          else s)) l s =
  Ok (Dfs (d_map s) (d_smap s) (rev (filter (cur s) l) ++ d_stack s) (d_area s + length (filter (cur s) l)) sx sy).
Proof.
  induction l as [|q l IH]; intros s L I B.
  - exists (d_sx s), (d_sy s). cbn. rewrite Nat.add_0_r. destruct s; reflexivity.
  - cbn [ofold]. destruct q as [ty tx]. change (ty * m + tx) with (pos (ty, tx)).
    rewrite (oget_val false) by (auto; apply I; left; reflexivity). cbn [obind].
    cbn [length] in B. destruct (cur s (ty, tx)) eqn:E.
    + rewrite nwrap_small by (unfold two64N, two64 in *; lia).
      edestruct (IH (Dfs (d_map s) (d_smap s) ((ty, tx) :: d_stack s) (d_area s + 1) (d_sx s + tx) (d_sy s + ty))) as (sx & sy & E').
      * exact L.
      * intros q Hq. apply I. right. exact Hq.
      * cbn [d_area]. lia.
      * exists sx, sy. rewrite E'. cbn [d_map d_smap d_stack d_area]. cbn [filter]. rewrite E. cbn [rev length].
        rewrite <- app_assoc. cbn [app]. f_equal. f_equal. lia.
    + destruct (IH s L) as (sx & sy & E'); [intros q Hq; apply I; right; exact Hq|lia|].
      exists sx, sy. rewrite E'. cbn [filter]. rewrite E. reflexivity.
Qed.

Lemma process_ok id s p : length (d_map s) = n * m -> length (d_smap s) = n * m -> ing p ->
  (Z.of_nat (d_area s + 4) < two64)%Z ->
  exists sx sy, process_point n m id s p =
    Ok (let mp := upd (d_map s) (pos p) false in
        let new := filter (val false mp) (nbrs n m p) in
        Dfs mp (upd (d_smap s) (pos p) id) (rev new ++ d_stack s) (d_area s + length new) sx sy).
Proof.
  intros L1 L2 I B. unfold process_point. destruct p as [ty tx] eqn:Ep. rewrite <- Ep in *.
  unfold pset. replace (ty * m + tx) with (pos p) by (rewrite Ep; reflexivity).
  rewrite !oset_ok by auto. cbn [obind].
  destruct (pushes_ok (nbrs n m p) (Dfs (upd (d_map s) (pos p) false) (upd (d_smap s) (pos p) id) (d_stack s) (d_area s) (d_sx s) (d_sy s)))
    as (sx & sy & E).
  - cbn [d_map]. rewrite upd_length. exact L1.
  - intros q Hq. apply nbrs_in in Hq; tauto.
  - cbn [d_area]. pose proof (nbrs_length p). lia.
  - exists sx, sy. rewrite E. reflexivity.
Qed.

(* ---- the loop ---- *)
Section Loop.
Context (id : nat) (s0 : nat * nat) (map0 : list bool) (smap0 : list nat)
  (Lm : length map0 = n * m) (Ls : length smap0 = n * m) (I0 : ing s0) (C0 : val false map0 s0 = true)
  (Hid : forall p, ing p -> val 0 smap0 p <> id) (Bd : (Z.of_nat (4 * (n * m) + 8) < two64)%Z).
Notation P0 := (fun p => ing p /\ val false map0 p = true).

Record inv (s : dfs) : Prop := {
  i_lm : length (d_map s) = n * m;
  i_ls : length (d_smap s) = n * m;
  i_cur : forall p, ing p -> cur s p = true <-> val false map0 p = true /\ lb s p <> id;
  i_lb : forall p, ing p -> lb s p = id \/ lb s p = val 0 smap0 p;
  i_in : forall p, ing p -> lb s p = id -> conn P0 s0 p;
  i_st : forall p, In p (d_stack s) -> conn P0 s0 p;
  i_nb : forall p q, ing p -> ing q -> lb s p = id -> adj p q -> cur s q = true -> In q (d_stack s);
  i_or : forall a p b, d_stack s = a ++ p :: b -> cur s p = false -> forall q, ing q -> adj p q -> cur s q = true -> In q a;
  i_pot : d_area s + 4 * nz (d_map s) <= 1 + 4 * nz map0;
  i_seed : lb s s0 = id \/ In s0 (d_stack s);
  i_sides : exists E, NoDup E /\ d_area s = 1 + length E /\
     forall p q, In (p, q) E <-> (P0 p /\ P0 q /\ adj p q /\ before p q) /\ (lb s p = id \/ lb s q = id);
  i_pix : exists ps, length ps <= d_area s /\ forall p, ing p -> lb s p = id \/ In p (d_stack s) -> In p ps }.

Lemma conn_ing p : conn P0 s0 p -> ing p /\ val false map0 p = true.
Proof. intros H. apply conn_P in H. tauto. Qed.

Lemma inv_start sx sy : inv (Dfs map0 smap0 [s0] 1 sx sy).
Proof.
  constructor; cbn [d_map d_smap d_stack d_area]; auto.
  - intros p Hp. specialize (Hid p Hp). tauto.
  - intros p Hp C. destruct (Hid p Hp C).
  - intros p [<-|[]]. apply conn_refl. auto.
  - intros p q Hp _ C. destruct (Hid p Hp C).
  - intros a p b E C. destruct a as [|a' a]; [|destruct a; discriminate]. injection E as <- <-. congruence.
  - right. left. reflexivity.
  - exists []. split; [constructor|]. split; [reflexivity|]. intros p q. split; [intros []|].
    intros (((Hp & _) & (Hq & _) & _) & [C|C]); [destruct (Hid p Hp C)|destruct (Hid q Hq C)].
  - exists [s0]. split; [cbn; lia|]. intros p Hp [C|C]; [destruct (Hid p Hp C)|exact C].
Qed.


Definition link (p q : nat * nat) : (nat * nat) * (nat * nat) :=
  if (fst p <? fst q) || ((fst p =? fst q) && (snd p <? snd q)) then (p, q) else (q, p).
Lemma link_cases p q : p <> q -> before p q /\ link p q = (p, q) \/ before q p /\ link p q = (q, p).
Proof.
  intros H. unfold link. destruct (before_total p q H) as [B|B]; [left|right]; (split; [exact B|]); unfold before in B.
  - destruct (Nat.ltb_spec (fst p) (fst q)), (Nat.eqb_spec (fst p) (fst q)), (Nat.ltb_spec (snd p) (snd q)); cbn; try reflexivity; lia.
  - destruct (Nat.ltb_spec (fst p) (fst q)), (Nat.eqb_spec (fst p) (fst q)), (Nat.ltb_spec (snd p) (snd q)); cbn; try reflexivity; lia.
Qed.

Lemma inv_step s p st sx sy : inv s -> d_stack s = p :: st ->
  exists s', process_point n m id (Dfs (d_map s) (d_smap s) st (d_area s) sx sy) p = Ok s' /\ inv s' /\
    4 * nz (d_map s') + length (d_stack s') < 4 * nz (d_map s) + length (d_stack s).
Proof.
  intros J Est. pose proof (i_lm _ J) as LM. pose proof (i_ls _ J) as LS.
  assert (Cp : conn P0 s0 p) by (apply (i_st _ J); rewrite Est; left; reflexivity).
  destruct (conn_ing p Cp) as (Ip & P0p).
  assert (NB : nz (d_map s) <= n * m) by (rewrite <- LM; apply nz_le).
  assert (NB0 : nz map0 <= n * m) by (rewrite <- Lm; apply nz_le).
  pose proof (i_pot _ J) as POT.
  destruct (process_ok id (Dfs (d_map s) (d_smap s) st (d_area s) sx sy) p) as (sx' & sy' & E); cbn [d_map d_smap d_area] in *; auto; [lia|].
  cbn [d_stack] in E. cbv zeta in E.
  set (mp := upd (d_map s) (pos p) false) in *. set (sm := upd (d_smap s) (pos p) id) in *.
  set (new := filter (val false mp) (nbrs n m p)) in *.
  assert (VM : forall q, ing q -> q <> p -> val false mp q = cur s q) by (intros q Hq N; apply val_upd_other; auto).
  assert (VMp : val false mp p = false) by (apply val_upd_same; auto).
  assert (VS : forall q, ing q -> q <> p -> val 0 sm q = lb s q) by (intros q Hq N; apply val_upd_other; auto).
  assert (VSp : val 0 sm p = id) by (apply val_upd_same; auto).
  assert (NW : forall q, In q new <-> ing q /\ adj p q /\ cur s q = true).
  { intros q. unfold new. rewrite filter_In, nbrs_in by exact Ip. split.
    - intros ((Hq & A) & V). rewrite VM in V; auto. apply adj_neq in A. congruence.
    - intros (Hq & A & V). split; [auto|]. rewrite VM; auto. apply adj_neq in A. congruence. }
  eexists. split; [exact E|].
  destruct (cur s p) eqn:Cur.
  - (* a new point *)
    assert (NI : lb s p <> id) by (apply (i_cur _ J p Ip) in Cur; tauto).
    assert (NL : length new <= 4).
    { unfold new. pose proof (nbrs_length p). revert H. generalize (nbrs n m p). clear.
      intros l. assert (length (filter (val false mp) l) <= length l); [|lia].
      induction l as [|a l IH]; cbn; [lia|]. destruct (val false mp a); cbn; lia. }
    assert (NZ : Datatypes.S (nz mp) = nz (d_map s)).
    { apply nz_upd. rewrite (nth_error_val false) by auto. rewrite Cur. reflexivity. }
    assert (NN : NoDup new) by (apply NoDup_filter, nbrs_nodup).
    split.
    + constructor; cbn [d_map d_smap d_stack d_area].
      * unfold mp. rewrite upd_length. exact LM.
      * unfold sm. rewrite upd_length. exact LS.
      * intros q Hq. destruct (prod_eq_dec_nat q p) as [->|N].
        -- rewrite VMp, VSp. split; [discriminate|tauto].
        -- rewrite VM, VS by auto. apply (i_cur _ J q Hq).
      * intros q Hq. destruct (prod_eq_dec_nat q p) as [->|N]; [left; exact VSp|]. rewrite VS by auto. apply (i_lb _ J q Hq).
      * intros q Hq. destruct (prod_eq_dec_nat q p) as [->|N]; [intros _; exact Cp|]. rewrite VS by auto. apply (i_in _ J q Hq).
      * intros q Hq. apply in_app_iff in Hq. destruct Hq as [Hq|Hq].
        -- rewrite <- in_rev in Hq. apply NW in Hq. destruct Hq as (Hq & A & V).
           eapply conn_step; [exact Cp|exact A|]. split; [exact Hq|]. apply (i_cur _ J q Hq) in V. tauto.
        -- apply (i_st _ J). rewrite Est. right. exact Hq.
      * intros q r Hq Hr Lq A V. apply in_app_iff.
        destruct (prod_eq_dec_nat r p) as [->|N]; [congruence|]. rewrite VM in V by auto.
        destruct (prod_eq_dec_nat q p) as [->|N'].
        -- left. rewrite <- in_rev. apply NW. auto.
        -- right. rewrite VS in Lq by auto. pose proof (i_nb _ J q r Hq Hr Lq A V) as H. rewrite Est in H.
           destruct H as [H|H]; [congruence|exact H].
      * intros a q b Es V r Hr A Vr.
        destruct (prod_eq_dec_nat r p) as [->|N]; [congruence|]. rewrite VM in Vr by auto.
        assert (Hq : exists b1, st = b1 ++ q :: b /\ a = rev new ++ b1).
        { destruct (app_split_cases (rev new) st a (q :: b) Es) as [(c & E1 & E2)|(c & E1 & E2)].
          - destruct c as [|c0 c]; [exists []; rewrite app_nil_r in E1; split; [now symmetry|now rewrite app_nil_r, E1]|].
            cbn in E2. injection E2 as Ec E2. subst c0. exfalso.
            assert (In q new) by (rewrite in_rev, E1; apply in_app_iff; right; left; reflexivity).
            apply NW in H. destruct H as (Hq & Aq & Vq). rewrite VM in V; auto; [congruence|]. apply adj_neq in Aq. congruence.
          - exists c. split; [exact E2|]. exact E1. }
        destruct Hq as (b1 & Eb & ->). apply in_app_iff.
        destruct (prod_eq_dec_nat q p) as [->|N'].
        -- left. rewrite <- in_rev. apply NW. auto.
        -- right. assert (Hq : ing q).
           { assert (conn P0 s0 q) by (apply (i_st _ J); rewrite Est, Eb; right; apply in_app_iff; right; left; reflexivity).
             now apply conn_ing in H. }
           rewrite VM in V by auto.
           assert (H : In r (p :: b1)).
           { eapply (i_or _ J (p :: b1) q b); eauto. rewrite Est, Eb. reflexivity. }
           destruct H as [H|H]; [congruence|exact H].
      * lia.
      * destruct (prod_eq_dec_nat s0 p) as [Ep|N]; [left; rewrite Ep; exact VSp|]. rewrite VS by auto.
        destruct (i_seed _ J) as [H|H]; [left; exact H|]. rewrite Est in H. destruct H as [H|H]; [congruence|].
        right. apply in_app_iff. right. exact H.
      * destruct (i_sides _ J) as (Es & ND & AR & ME).
        exists (Es ++ map (link p) new). split; [|split].
        -- apply NoDup_app_intro; [exact ND| |].
           ++ apply NoDup_map_inj; [exact NN|]. intros q r Hq Hr C. apply NW in Hq, Hr.
              destruct Hq as (_ & Aq & _), Hr as (_ & Ar & _). apply adj_neq in Aq, Ar.
              destruct (link_cases p q Aq) as [(_ & Lq)|(_ & Lq)], (link_cases p r Ar) as [(_ & Lr)|(_ & Lr)];
                rewrite Lq, Lr in C; congruence.
           ++ intros e He Hn. apply in_map_iff in Hn. destruct Hn as (q & <- & Hq). apply NW in Hq.
              destruct Hq as (Hq & Aq & Vq). apply (i_cur _ J q Hq) in Vq. apply adj_neq in Aq.
              destruct (link_cases p q Aq) as [(_ & Lq)|(_ & Lq)]; rewrite Lq in He; apply ME in He; tauto.
        -- rewrite app_length, map_length. lia.
        -- intros a b. rewrite in_app_iff, ME, in_map_iff. split.
           ++ intros [(B & C)|(q & Lq & Hq)].
              ** split; [exact B|]. destruct B as ((Ia & _) & (Ib & _) & _).
                 destruct (prod_eq_dec_nat a p) as [->|Na]; [left; exact VSp|].
                 destruct (prod_eq_dec_nat b p) as [->|Nb]; [right; exact VSp|]. rewrite !VS by auto. exact C.
              ** apply NW in Hq. destruct Hq as (Hq & Aq & Vq). apply (i_cur _ J q Hq) in Vq.
                 destruct (link_cases p q (adj_neq _ _ Aq)) as [(B & L)|(B & L)]; rewrite L in Lq; injection Lq as <- <-.
                 --- split; [|left; exact VSp]. split; [auto|]. split; [tauto|]. auto.
                 --- split; [|right; exact VSp]. split; [tauto|]. split; [auto|]. split; [apply adj_sym; exact Aq|exact B].
           ++ intros (B & C). assert (B' := B). destruct B as ((Ia & Va) & (Ib & Vb) & A & Be).
              destruct (Nat.eq_dec (lb s a) id) as [La|La]; [left; auto|].
              destruct (Nat.eq_dec (lb s b) id) as [Lb|Lb]; [left; auto|]. right.
              destruct C as [C|C].
              ** destruct (prod_eq_dec_nat a p) as [->|Na]; [|rewrite VS in C by auto; contradiction].
                 exists b. split.
                 --- destruct (link_cases p b (adj_neq _ _ A)) as [(B & L)|(B & L)]; [exact L|]. destruct (before_asym _ _ B Be).
                 --- apply NW. split; [exact Ib|]. split; [exact A|]. apply (i_cur _ J b Ib). auto.
              ** destruct (prod_eq_dec_nat b p) as [->|Nb]; [|rewrite VS in C by auto; contradiction].
                 exists a. split.
                 --- destruct (link_cases p a (adj_neq _ _ (adj_sym _ _ A))) as [(B & L)|(B & L)]; [destruct (before_asym _ _ B Be)|exact L].
                 --- apply NW. split; [exact Ia|]. split; [apply adj_sym; exact A|]. apply (i_cur _ J a Ia). auto.
      * destruct (i_pix _ J) as (ps & LP & HP). exists (new ++ ps). split; [rewrite app_length; lia|].
        intros q Hq H. apply in_app_iff. destruct H as [H|H].
        -- right. apply HP; auto. destruct (prod_eq_dec_nat q p) as [->|N].
           ++ right. rewrite Est. left. reflexivity.
           ++ left. rewrite VS in H by auto. exact H.
        -- apply in_app_iff in H. destruct H as [H|H]; [left; apply in_rev; exact H|]. right. apply HP; auto.
           right. rewrite Est. right. exact H.
    + cbn [d_map d_stack]. rewrite app_length, rev_length, Est. cbn [length]. lia.
  - (* a point that was already there *)
    assert (LI : lb s p = id).
    { destruct (Nat.eq_dec (lb s p) id) as [|N]; [assumption|]. exfalso.
      assert (cur s p = true) by (apply (i_cur _ J p Ip); auto). congruence. }
    assert (N0 : new = []).
    { destruct new as [|q new'] eqn:En; [reflexivity|]. exfalso.
      destruct (proj1 (NW q) (or_introl eq_refl)) as (Hq & A & V).
      exact (i_or _ J [] p st Est Cur q Hq A V). }
    assert (EM : mp = d_map s).
    { apply upd_same_val. rewrite (nth_error_val false) by auto. rewrite Cur. reflexivity. }
    assert (ES : sm = d_smap s).
    { apply upd_same_val. rewrite (nth_error_val 0) by auto. rewrite LI. reflexivity. }
    rewrite N0, EM, ES. cbn [rev app length]. rewrite Nat.add_0_r. split.
    + destruct J as [J1 J2 J3 J4 J5 J6 J7 J8 J9 J10 J11 J12].
      constructor; cbn [d_map d_smap d_stack d_area]; auto.
      * intros q Hq. apply J6. rewrite Est. right. exact Hq.
      * intros q r Hq Hr Lq A V. pose proof (J7 q r Hq Hr Lq A V) as H. rewrite Est in H. destruct H as [H|H]; [congruence|exact H].
      * intros a q b Eq V r Hr A Vr. assert (H : In r (p :: a)).
        { apply (J8 (p :: a) q b); auto. rewrite Est, Eq. reflexivity. }
        destruct H as [H|H]; [congruence|exact H].
      * destruct J10 as [H|H]; [auto|]. rewrite Est in H. destruct H as [<-|H]; auto.
      * destruct J12 as (ps & LP & HP). exists ps. split; [exact LP|]. intros q Hq [H|H]; apply HP; auto. right. rewrite Est. right. exact H.
    + cbn [d_map d_stack]. rewrite Est. cbn [length]. lia.
Qed.

Lemma loop_ok : forall fuel s, inv s -> 4 * nz (d_map s) + length (d_stack s) <= fuel ->
  exists s', dfs_loop n m id fuel s = Ok s' /\ inv s' /\ d_stack s' = [].
Proof.
  induction fuel as [|fuel IH]; intros s J F.
  - exists s. destruct (d_stack s) as [|p st] eqn:E; [|cbn in F; lia]. cbn [dfs_loop]. rewrite E. auto.
  - cbn [dfs_loop]. destruct (d_stack s) as [|p st] eqn:E; [exists s; auto|].
    destruct (inv_step s p st (d_sx s) (d_sy s) J E) as (s' & E' & J' & LT). rewrite E'. cbn [obind].
    apply IH; [exact J'|]. rewrite E in LT. lia.
Qed.

(* the segment that is found *)
Lemma explore_ok : exists s', 
  (d <- process_point n m id (Dfs map0 smap0 [] 1 (snd s0) (fst s0)) s0 ;; dfs_loop n m id (4 * (n * m) + 4) d) = Ok s' /\
  length (d_map s') = n * m /\ length (d_smap s') = n * m /\
  (forall p, ing p -> cur s' p = true <-> val false map0 p = true /\ lb s' p <> id) /\
  (forall p, ing p -> lb s' p = id <-> conn P0 s0 p) /\
  (forall p, ing p -> lb s' p = id \/ lb s' p = val 0 smap0 p) /\
  (exists E, sides (conn P0 s0) E /\ d_area s' = 1 + length E) /\
  (forall l, lists_pixels (conn P0 s0) l -> length l <= d_area s').
Proof.
  pose proof (inv_start (snd s0) (fst s0)) as J0.
  destruct (inv_step _ s0 [] (snd s0) (fst s0) J0 eq_refl) as (s1 & E1 & J1 & LT). cbn [d_map d_smap d_area] in E1.
  rewrite E1. cbn [obind]. cbn [d_map d_stack length] in LT.
  pose proof (nz_le map0) as NB. rewrite Lm in NB.
  destruct (loop_ok (4 * (n * m) + 4) s1 J1) as (s' & E' & J & ST); [lia|].
  exists s'. split; [exact E'|]. split; [apply (i_lm _ J)|]. split; [apply (i_ls _ J)|].
  assert (CL : forall p, conn P0 s0 p -> lb s' p = id).
  { intros p H. induction H as [_|q r H IH A (Ir & Vr)].
    - destruct (i_seed _ J) as [H|H]; [exact H|]. rewrite ST in H. destruct H.
    - destruct (conn_ing q H) as (Iq & Vq).
      destruct (Nat.eq_dec (lb s' r) id) as [|N]; [assumption|]. exfalso.
      assert (cur s' r = true) by (apply (i_cur _ J r Ir); auto).
      pose proof (i_nb _ J q r Iq Ir IH A H0) as C. rewrite ST in C. destruct C. }
  assert (LC : forall p, ing p -> lb s' p = id <-> conn P0 s0 p).
  { intros p Hp. split; [apply (i_in _ J p Hp)|apply CL]. }
  split; [|split; [|split; [|split]]].
  - apply (i_cur _ J).
  - exact LC.
  - apply (i_lb _ J).
  - destruct (i_sides _ J) as (E & ND & AR & ME). exists E. split; [|exact AR]. split; [exact ND|].
    intros p q. rewrite ME. split.
    + intros ((Pp & Pq & A & B) & [C|C]).
      * apply LC in C; [|tauto]. split; [exact C|]. split; [eapply conn_step; eauto|]. auto.
      * apply LC in C; [|tauto]. split; [eapply conn_step; [exact C|apply adj_sym; exact A|exact Pp]|]. auto.
    + intros (C1 & C2 & A & B). split; [|left; apply CL; exact C1].
      split; [apply conn_ing; exact C1|]. split; [apply conn_ing; exact C2|]. auto.
  - intros l (ND & HL). destruct (i_pix _ J) as (ps & LP & HP).
    assert (length l <= length ps); [|lia]. apply NoDup_incl_length; [exact ND|].
    intros p Hp. apply HL in Hp. apply HP; [apply conn_ing in Hp; tauto|]. left. apply CL. exact Hp.
Qed.
End Loop.
End Grid.
