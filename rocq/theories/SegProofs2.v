(* Lemmas on segmentation, part 2: the scan of the map. *)
From Coq Require Import NArith ZifyBool ZifyNat.
From Verif Require Import Base IndexModel IndexProofs VecModel VecProofs VecProofs2 ImageModel ImageSpec ImageProofs
  ImageProofs2 ImageProofs3 SegModel SegSpec SegProofs.

Lemma conn_iff (P Q : nat * nat -> Prop) p q : (forall x, P x <-> Q x) -> conn P p q <-> conn Q p q.
Proof. intros H. split; apply conn_mono; intros x; apply H. Qed.
Lemma sides_iff (P Q : nat * nat -> Prop) E : (forall x, P x <-> Q x) -> sides P E -> sides Q E.
Proof. intros H (N & M). split; [exact N|]. intros p q. rewrite M, !H. reflexivity. Qed.
Lemma lists_iff (P Q : nat * nat -> Prop) l : (forall x, P x <-> Q x) -> lists_pixels P l -> lists_pixels Q l.
Proof. intros H (N & M). split; [exact N|]. intros p. rewrite M, H. reflexivity. Qed.

Section Scan.
Context (n m : nat).
Notation ing := (ing n m).
Notation pos := (pos m).
Notation val := (val m).

Lemma grid_nth k p : nth_error (grid n m) k = Some p -> k = pos p /\ ing p.
Proof.
  intros E. assert (K : k < n * m) by (rewrite <- grid_length; apply nth_error_Some; congruence).
  destruct (pos_inv n m k K) as (x & y & Hx & Hy & ->). rewrite nth_error_grid in E by assumption.
  injection E as <-. split; [reflexivity|]. split; assumption.
Qed.
Lemma grid_before a p b q : grid n m = a ++ p :: b -> In q b -> before p q.
Proof.
  intros E Hq. apply In_nth_error in Hq. destruct Hq as (k & Ek).
  assert (E1 : nth_error (grid n m) (length a) = Some p) by (rewrite E; apply nth_error_mid).
  assert (E2 : nth_error (grid n m) (length a + S k) = Some q).
  { rewrite E. rewrite nth_error_app2 by lia. replace (length a + S k - length a) with (S k) by lia. exact Ek. }
  apply grid_nth in E1, E2. destruct E1 as (E1 & I1 & J1), E2 as (E2 & I2 & J2). unfold SegProofs.pos in E1, E2.
  unfold before. assert (L : fst p * m + snd p < fst q * m + snd q) by lia.
  destruct (lt_eq_lt_dec (fst p) (fst q)) as [[C|C]|C]; [left; exact C|right; split; [exact C|rewrite C in L; lia]|exfalso].
  assert (fst q * m + snd q < (fst q + 1) * m) by lia.
  assert ((fst q + 1) * m <= fst p * m) by (apply Nat.mul_le_mono_r; lia). lia.
Qed.

Context (mp0 : list bool) (f : nat) (L0 : length mp0 = n * m) (F1 : 0 < f)
  (Bd : (Z.of_nat (4 * (n * m) + 8) < two64)%Z) (Bf : (Z.of_nat (f + n * m) < two64)%Z).
Definition O (p : nat * nat) : Prop := ing p /\ val false mp0 p = true.
Notation cur s := (val false (c_map s)).
Notation lb s := (val 0 (c_smap s)).

Definition good_seg (o : seg) (p0 : nat * nat) : Prop :=
  O p0 /\ s_origin o = pos p0 /\ (forall q, conn O p0 q -> q = p0 \/ before p0 q) /\
  (exists E, sides (conn O p0) E /\ s_area o = 1 + length E) /\
  (forall l, lists_pixels (conn O p0) l -> length l <= s_area o).

Record K (s : scan) (done : list (nat * nat)) : Prop := {
  k_lm : length (c_map s) = n * m;
  k_ls : length (c_smap s) = n * m;
  k_cur : forall p, ing p -> cur s p = true <-> O p /\ lb s p = 0;
  k_done : forall p, In p done -> ing p -> cur s p = false;
  k_id : c_id s = f + length (c_out s);
  k_len : length (c_out s) <= length done;
  k_rng : forall p, ing p -> lb s p = 0 \/ f <= lb s p < c_id s;
  k_off : forall p, ing p -> val false mp0 p = false -> lb s p = 0;
  k_closed : forall p q, O p -> O q -> adj p q -> lb s p <> 0 -> lb s q = lb s p;
  k_conn : forall p q, ing p -> ing q -> lb s p = lb s q -> lb s p <> 0 -> conn O p q;
  k_ids : map s_id (c_out s) = seq f (length (c_out s));
  k_out : forall o, In o (c_out s) -> exists p0, good_seg o p0 /\ lb s p0 = s_id o }.

Lemma K_start : K (Scan mp0 (repeat 0 (n * m)) f []) [].
Proof.
  assert (Z : forall p, val 0 (repeat 0 (n * m)) p = 0).
  { intros p. unfold SegProofs.val. generalize (SegProofs.pos m p) (n * m). clear. intros i k. revert i.
    induction k as [|k IH]; intros [|i]; cbn; auto. }
  constructor; cbn [c_map c_smap c_id c_out length map seq]; auto.
  - apply repeat_length.
  - intros p Hp. rewrite Z. unfold O. tauto.
  - intros p [].
  - intros p q _ _ _ H. rewrite Z in H. lia.
  - intros p q _ _ _ H. rewrite Z in H. lia.
  - intros o [].
Qed.

Lemma K_step s done p rest : K s done -> grid n m = done ++ p :: rest ->
  exists s', visit_pixel n m s p = Ok s' /\ K s' (done ++ [p]).
Proof.
  intros J EG. assert (Ip : ing p).
  { assert (H : In p (grid n m)) by (rewrite EG; apply in_app_iff; right; left; reflexivity).
    destruct p as [y x]. apply in_grid in H. exact H. }
  assert (LD : length done < n * m).
  { pose proof (grid_length n m) as G. rewrite EG, app_length in G. cbn in G. lia. }
  unfold visit_pixel. destruct p as [y x] eqn:Ep. rewrite <- Ep in *.
  replace (y * m + x) with (pos p) by (rewrite Ep; reflexivity).
  rewrite (oget_val n m false) by (auto; apply (k_lm _ _ J)). cbn [obind].
  destruct (cur s p) eqn:Cur.
  2:{ exists s. split; [reflexivity|]. destruct J. constructor; auto.
      - intros q Hq. apply in_app_iff in Hq. destruct Hq as [Hq|[<-|[]]]; auto.
      - rewrite app_length. cbn. lia. }
  pose proof (proj1 (k_cur _ _ J p Ip) Cur) as (Op & Lp).
  destruct (explore_ok n m (c_id s) p (c_map s) (c_smap s)) as (d & E & LM & LS & CU & LB & LO & (Es & SD & AR) & PX);
    auto; try apply J.
  { intros q Hq. pose proof (k_rng _ _ J q Hq). pose proof (k_id _ _ J). lia. }
  replace (snd p) with x in E by (rewrite Ep; reflexivity). replace (fst p) with y in E by (rewrite Ep; reflexivity).
  destruct (process_point n m (c_id s) (Dfs (c_map s) (c_smap s) [] 1 x y) p) as [d1| | | |]; try discriminate.
  cbn [obind] in E |- *. rewrite E. cbn [obind].
  eexists. split; [reflexivity|].
  pose proof (k_id _ _ J) as KI. pose proof (k_len _ _ J) as KL.
  assert (ID : c_id s <> 0) by lia.
  (* the component *)
  assert (CC : forall q, conn (fun q => ing q /\ cur s q = true) p q <-> conn O p q).
  { intros q. split.
    - apply conn_mono. intros r (Hr & V). apply (k_cur _ _ J r Hr) in V. tauto.
    - intros H. induction H as [_|q r H IH A Or]; [apply conn_refl; auto|].
      eapply conn_step; [exact IH|exact A|]. destruct Or as (Ir & Vr). split; [exact Ir|].
      apply (k_cur _ _ J r Ir). split; [split; assumption|].
      apply conn_P in IH. destruct IH as (_ & Iq & Vq). apply (k_cur _ _ J q Iq) in Vq. destruct Vq as (Oq & Lq).
      destruct (Nat.eq_dec (lb s r) 0) as [|N]; [assumption|].
      pose proof (k_closed _ _ J r q (conj Ir Vr) Oq (adj_sym _ _ A) N). lia. }
  assert (LB' : forall q, ing q -> val 0 (d_smap d) q = c_id s <-> conn O p q) by (intros q Hq; rewrite (LB q Hq); apply CC).
  assert (CO : forall q, conn O p q -> O q) by (intros q H; apply conn_P in H; tauto).
  constructor; cbn [c_map c_smap c_id c_out].
  - exact LM.
  - exact LS.
  - intros q Hq. rewrite (CU q Hq), (k_cur _ _ J q Hq). destruct (LO q Hq) as [H|H]; [|rewrite H; split; [tauto|]].
    + rewrite H. split; [tauto|]. intros (_ & C). lia.
    + intros (C1 & C2). split; [auto|]. rewrite C2. lia.
  - intros q Hq Iq. destruct (val false (d_map d) q) eqn:V; [|reflexivity]. exfalso.
    apply (CU q Iq) in V. destruct V as (V1 & V2). apply in_app_iff in Hq. destruct Hq as [Hq|[<-|[]]].
    + rewrite (k_done _ _ J q Hq Iq) in V1. discriminate.
    + apply V2. apply LB'; [exact Iq|]. apply conn_refl. exact Op.
  - rewrite app_length. cbn [length]. rewrite nwrap_small; [lia|]. unfold two64N. unfold two64 in *. lia.
  - rewrite !app_length. cbn [length]. lia.
  - intros q Hq. rewrite nwrap_small by (unfold two64N; unfold two64 in *; lia).
    destruct (LO q Hq) as [H|H]; rewrite H; [right; lia|]. pose proof (k_rng _ _ J q Hq). lia.
  - intros q Hq V. destruct (LO q Hq) as [H|H].
    + apply (LB' q Hq) in H. apply CO in H. destruct H. congruence.
    + rewrite H. apply (k_off _ _ J q Hq V).
  - intros q r Oq Or A N. destruct (Nat.eq_dec (val 0 (d_smap d) q) (c_id s)) as [Eq|Nq].
    + rewrite Eq. apply LB'; [apply Or|]. apply LB' in Eq; [|apply Oq]. eapply conn_step; eauto.
    + destruct (LO q (proj1 Oq)) as [H|Hq]; [contradiction|]. rewrite Hq in *.
      pose proof (k_closed _ _ J q r Oq Or A N) as C.
      destruct (LO r (proj1 Or)) as [H|H]; [|congruence]. exfalso. apply Nq. rewrite <- Hq. apply LB'; [apply Oq|].
      apply LB' in H; [|apply Or]. eapply conn_step; [exact H|apply adj_sym; exact A|exact Oq].
  - intros q r Iq Ir Eqr N. destruct (Nat.eq_dec (val 0 (d_smap d) q) (c_id s)) as [Eq|Nq].
    + assert (Er : val 0 (d_smap d) r = c_id s) by congruence. apply LB' in Eq, Er; auto.
      apply conn_trans with p; [apply conn_sym; exact Eq|exact Er].
    + assert (Nr : val 0 (d_smap d) r <> c_id s) by congruence.
      destruct (LO q Iq) as [H|Hq]; [contradiction|]. destruct (LO r Ir) as [H|Hr]; [contradiction|].
      apply (k_conn _ _ J q r Iq Ir); congruence.
  - rewrite map_app, app_length, (k_ids _ _ J). cbn [map length s_id]. rewrite Nat.add_1_r, seq_S, KI. reflexivity.
  - intros o Ho. apply in_app_iff in Ho. destruct Ho as [Ho|[<-|[]]].
    + destruct (k_out _ _ J o Ho) as (p0 & G & Lp0). exists p0. split; [exact G|].
      destruct G as ((Ip0 & _) & _). destruct (LO p0 Ip0) as [H|H]; [|congruence]. exfalso.
      apply (LB' p0 Ip0) in H. rewrite <- CC in H. apply conn_P in H. destruct H as (_ & _ & V).
      apply (k_cur _ _ J p0 Ip0) in V. destruct V as (_ & V).
      assert (In (s_id o) (seq f (length (c_out s)))) by (rewrite <- (k_ids _ _ J); apply in_map; exact Ho).
      apply in_seq in H. lia.
    + exists p. cbn [s_id]. split; [|apply LB'; [exact Ip|apply conn_refl; exact Op]].
      split; [exact Op|]. cbn [s_origin s_area]. split; [reflexivity|]. split; [|split].
      * intros q Hq. apply CC in Hq. apply conn_P in Hq. destruct Hq as (_ & Iq & Vq).
        assert (Hg : In q (grid n m)) by (destruct q; apply in_grid; exact Iq).
        rewrite EG in Hg. apply in_app_iff in Hg. destruct Hg as [Hg|[Hg|Hg]].
        -- rewrite (k_done _ _ J q Hg Iq) in Vq. discriminate.
        -- left. symmetry. exact Hg.
        -- right. eapply grid_before; eauto.
      * exists Es. split; [|exact AR]. eapply sides_iff; [exact CC|exact SD].
      * intros l Hl. apply PX. eapply lists_iff; [|exact Hl]. intros q. symmetry. apply CC.
Qed.

Lemma K_all : forall rest done s, K s done -> grid n m = done ++ rest ->
  exists s', ofold (visit_pixel n m) rest s = Ok s' /\ K s' (grid n m).
Proof.
  induction rest as [|p rest IH]; intros done s J E.
  - exists s. rewrite E, app_nil_r. auto.
  - destruct (K_step s done p rest J E) as (s' & E' & J'). cbn [ofold]. rewrite E'. cbn [obind].
    apply (IH (done ++ [p])); [exact J'|]. rewrite <- app_assoc. exact E.
Qed.

(* the labels after the scan *)
Record labelled (sm : list nat) (out : list seg) : Prop := {
  l_len : length sm = n * m;
  l_zero : forall p, ing p -> val 0 sm p = 0 <-> val false mp0 p = false;
  l_conn : forall p q, O p -> O q -> val 0 sm p = val 0 sm q <-> conn O p q;
  l_ids : map s_id out = seq f (length out);
  l_rng : forall p, O p -> f <= val 0 sm p < f + length out;
  l_out : forall o, In o out -> exists p0, good_seg o p0 /\ val 0 sm p0 = s_id o }.

Lemma scan_ok : exists s, ofold (visit_pixel n m) (grid n m) (Scan mp0 (repeat 0 (n * m)) f []) = Ok s /\
  labelled (c_smap s) (c_out s).
Proof.
  destruct (K_all (grid n m) [] _ K_start eq_refl) as (s & E & J). exists s. split; [exact E|].
  assert (NZ : forall p, O p -> lb s p <> 0).
  { intros p Op C. assert (cur s p = true) by (apply (k_cur _ _ J p (proj1 Op)); auto).
    rewrite (k_done _ _ J p) in H; [discriminate| |apply Op]. destruct p as [y x]. apply in_grid. apply Op. }
  constructor.
  - apply J.
  - intros p Hp. split.
    + intros C. destruct (val false mp0 p) eqn:V; [|reflexivity]. exfalso. apply (NZ p); [split; assumption|exact C].
    + apply (k_off _ _ J p Hp).
  - intros p q Op Oq. split.
    + intros H. apply (k_conn _ _ J); auto; [apply Op|apply Oq].
    + intros H. induction H as [|q r H IH A Or]; [reflexivity|].
      apply conn_P in H. destruct H as (_ & Oq'). rewrite (k_closed _ _ J q r Oq' Or A (NZ q Oq')). apply IH. exact Oq'.
  - apply J.
  - intros p Op. destruct (k_rng _ _ J p (proj1 Op)) as [H|H]; [destruct (NZ p Op H)|]. rewrite (k_id _ _ J) in H. exact H.
  - apply J.
Qed.
End Scan.
