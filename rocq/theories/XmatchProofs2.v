(* Lemmas on cross matching, part 2: the loops over all pairs. *)
From Coq Require Import ZifyBool ZifyNat.
From Verif Require Import Base IndexModel IndexProofs VecModel VecProofs ImageModel ImageProofs MatModel MatProofs XmatchModel XmatchSpec XmatchProofs.

Definition updf {A} (f : nat -> A) (i : nat) (a : A) : nat -> A := fun i' => if i' =? i then a else f i'.
Lemma updf_eq {A} (f : nat -> A) i a : updf f i a i = a.
Proof. unfold updf. rewrite Nat.eqb_refl. reflexivity. Qed.
Lemma updf_neq {A} (f : nat -> A) i j a : j <> i -> updf f i a j = f j.
Proof. unfold updf. destruct (Nat.eqb_spec j i); congruence. Qed.

Lemma nth_error_eq_nth {A} (l m : list A) k d : nth_error l k = nth_error m k -> nth k l d = nth k m d.
Proof.
  intros E. destruct (nth_error m k) eqn:F.
  - rewrite (nth_error_nth _ _ d E), (nth_error_nth _ _ d F). reflexivity.
  - apply nth_error_None in E, F. rewrite !nth_overflow by assumption. reflexivity.
Qed.

Section S.
Variables (dist : nat -> nat -> option Z) (nth_ n1 n2 : nat) (self no_mirror : bool).
Hypothesis Hn : 1 <= nth_.

(* the columns are held by id and d *)
Definition cols (id : list (option nat)) (d : list (option Z)) (C : nat -> list entry) : Prop :=
  (forall i, i < n1 -> length (C i) = nth_) /\
  rep nth_ n1 d (fun k i => ed (nth k (C i) None)) /\ rep nth_ n1 id (fun k i => ei (nth k (C i) None)).
Definition mirs (rid : list (option nat)) (rd : list (option Z)) (R : nat -> entry) : Prop :=
  if no_mirror then rid = [] /\ rd = []
  else repv n2 rd (fun j => ed (R j)) /\ repv n2 rid (fun j => ei (R j)).
Definition st (r : xres) C R : Prop := cols (x_id r) (x_d r) C /\ mirs (x_rid r) (x_rd r) R.

Lemma cols_ext id d C C' : cols id d C -> (forall i, i < n1 -> C i = C' i) -> cols id d C'.
Proof.
  intros (H1 & H2 & H3) E. split; [|split].
  - intros i Hi. rewrite <- E by exact Hi. auto.
  - eapply rep_ext; [exact H2|]. intros k i _ Hi. cbn. rewrite E by exact Hi. reflexivity.
  - eapply rep_ext; [exact H3|]. intros k i _ Hi. cbn. rewrite E by exact Hi. reflexivity.
Qed.
Lemma mirs_ext rid rd R R' : mirs rid rd R -> (forall j, j < n2 -> R j = R' j) -> mirs rid rd R'.
Proof.
  unfold mirs. destruct no_mirror; [auto|]. intros (H2 & H3) E. split.
  - eapply repv_ext; [exact H2|]. intros j Hj. cbn. rewrite E by exact Hj. reflexivity.
  - eapply repv_ext; [exact H3|]. intros j Hj. cbn. rewrite E by exact Hj. reflexivity.
Qed.

(* writing entry e at position k of column i *)
Lemma cols_set id d C i k e : cols id d C -> i < n1 -> k < nth_ ->
  exists id' d', pset n1 id k i (ei e) = Ok id' /\ pset n1 d k i (ed e) = Ok d' /\
    cols id' d' (updf C i (upd (C i) k e)).
Proof.
  intros (H1 & H2 & H3) Hi Hk.
  destruct (rep_set nth_ n1 _ _ k i (ed e) H2 Hk Hi) as (d' & E1 & H4).
  destruct (rep_set nth_ n1 _ _ k i (ei e) H3 Hk Hi) as (id' & E2 & H5).
  exists id', d'. split; [exact E2|]. split; [exact E1|].
  assert (Hc : forall k' i', k' < nth_ -> i' < n1 ->
    forall T (g : entry -> T), (if (k' =? k) && (i' =? i) then g e else g (nth k' (C i') None)) = g (nth k' (updf C i (upd (C i) k e) i') None)).
  { clear id' d' E1 E2 H4 H5. intros k' i' Hk' Hi' T g. destruct (Nat.eqb_spec i' i) as [->|Ni].
    - rewrite updf_eq, andb_true_r. destruct (Nat.eqb_spec k' k) as [->|Nk].
      + assert (E : nth_error (upd (C i) k e) k = Some e).
        { rewrite nth_error_upd, Nat.eqb_refl. rewrite (H1 i Hi). destruct (Nat.ltb_spec k nth_); [reflexivity|lia]. }
        apply (nth_error_nth _ _ None) in E. rewrite E. reflexivity.
      + f_equal. assert (E : nth_error (upd (C i) k e) k' = nth_error (C i) k').
        { rewrite nth_error_upd. destruct (Nat.eqb_spec k' k); [congruence|reflexivity]. }
        apply nth_error_eq_nth. symmetry; exact E.
    - rewrite updf_neq by exact Ni. rewrite andb_false_r. reflexivity. }
  split; [|split].
  - intros i' Hi'. unfold updf. destruct (Nat.eqb_spec i' i); [rewrite upd_length|]; auto.
  - eapply rep_ext; [exact H4|]. intros k' i' Hk' Hi'. unfold upd2. apply Hc; assumption.
  - eapply rep_ext; [exact H5|]. intros k' i' Hk' Hi'. unfold upd2. apply Hc; assumption.
Qed.

Lemma upd_app_at {A} (l : list A) a m e : upd (l ++ a :: m) (length l) e = l ++ e :: m.
Proof. induction l as [|b l IH]; cbn; [reflexivity|]. rewrite IH. reflexivity. Qed.
Lemma cols_get id d C i k : cols id d C -> i < n1 -> k < nth_ ->
  at2 n1 d k i = Ok (ed (nth k (C i) None)) /\ at2 n1 id k i = Ok (ei (nth k (C i) None)).
Proof.
  intros (H1 & H2 & H3) Hi Hk. split.
  - apply (rep_get _ _ _ _ _ _ H2 Hk Hi).
  - apply (rep_get _ _ _ _ _ _ H3 Hk Hi).
Qed.

Lemma bubble_ok i (Hi : i < n1) : forall k id d C A e B, cols id d C -> C i = A ++ e :: B -> length A = k ->
  exists id' d', bubble n1 i k id d = Ok (id', d') /\ cols id' d' (updf C i (insr e (rev A) B)).
Proof.
  induction k as [|k IH]; intros id d C A e B HC E L.
  - destruct A; [|discriminate]. exists id, d. split; [reflexivity|]. eapply cols_ext; [exact HC|].
    intros i' Hi'. unfold updf. destruct (Nat.eqb_spec i' i) as [->|]; [rewrite E|]; reflexivity.
  - destruct (exists_last (l := A)) as (A' & a & ->); [intros ->; discriminate|].
    rewrite app_length in L. cbn [length] in L. assert (L' : length A' = k) by lia.
    rewrite <- app_assoc in E. cbn [app] in E.
    assert (Hk : k + 1 < nth_).
    { destruct HC as (H1 & _). specialize (H1 i Hi). rewrite E, app_length in H1. cbn [length] in H1. lia. }
    cbn [bubble].
    assert (N1 : nth k (C i) None = a). { rewrite E, app_nth2, L', Nat.sub_diag by lia. reflexivity. }
    assert (N2 : nth (k + 1) (C i) None = e). { rewrite E, app_nth2 by lia. replace (k + 1 - length A') with 1 by lia. reflexivity. }
    destruct (cols_get id d C i k HC Hi) as (G1 & G2); [lia|]. destruct (cols_get id d C i (k + 1) HC Hi) as (G3 & G4); [lia|].
    rewrite N1 in G1, G2. rewrite N2 in G3, G4. rewrite G1, G3. cbn [obind].
    rewrite rev_app_distr. cbn [rev app insr]. destruct (dlt (ed e) (ed a)) eqn:D.
    + destruct (cols_set id d C i k e HC Hi) as (id1 & d1 & S1 & S2 & HC1); [lia|].
      destruct (cols_set id1 d1 _ i (k + 1) a HC1 Hi) as (id2 & d2 & S3 & S4 & HC2); [lia|].
      rewrite S2. cbn [obind]. rewrite S4. cbn [obind]. rewrite G2, G4. cbn [obind]. rewrite S1. cbn [obind]. rewrite S3. cbn [obind].
      destruct (IH id2 d2 _ A' e (a :: B) HC2) as (id' & d' & E' & HC').
      * rewrite !updf_eq, E. rewrite <- L' at 1. rewrite upd_app_at.
        change (A' ++ e :: e :: B) with (A' ++ [e] ++ e :: B). rewrite app_assoc.
        replace (k + 1) with (length (A' ++ [e])) by (rewrite app_length; cbn; lia).
        rewrite upd_app_at, <- app_assoc. reflexivity.
      * exact L'.
      * exists id', d'. split; [exact E'|]. eapply cols_ext; [exact HC'|]. intros i' Hi'. unfold updf.
        destruct (Nat.eqb_spec i' i); reflexivity.
    + exists id, d. split; [reflexivity|]. eapply cols_ext; [exact HC|].
      intros i' Hi'. unfold updf. destruct (Nat.eqb_spec i' i) as [->|]; [|reflexivity]. 
      rewrite E. cbn [rev]. rewrite rev_involutive, <- app_assoc. reflexivity.
Qed.

Definition rstep (cur : entry) (sd : option Z) (i : nat) : entry :=
  if dlt sd (ed cur) then (match sd with Some x => Some (x, i) | None => None end) else cur.

Lemma work_ok r C R i j : st r C R -> i < n1 -> j < n2 ->
  exists r', work dist nth_ n1 no_mirror r i j = Ok r' /\
    st r' (updf C i (step (C i) (dist i j) j)) (updf R j (rstep (R j) (dist i j) i)).
Proof.
  intros (HC & HR) Hi Hj. unfold work. cbv zeta.
  destruct (exists_last (l := C i)) as (A & a & E).
  { intros E. destruct HC as (H1 & _). specialize (H1 i Hi). rewrite E in H1. cbn in H1. lia. }
  assert (L : length A = nth_ - 1).
  { destruct HC as (H1 & _). specialize (H1 i Hi). rewrite E, app_length in H1. cbn [length] in H1. lia. }
  destruct (cols_get _ _ C i (nth_ - 1) HC Hi) as (G1 & _); [lia|].
  assert (N1 : nth (nth_ - 1) (C i) None = a). { rewrite E, app_nth2, L, Nat.sub_diag by lia. reflexivity. }
  rewrite N1 in G1. rewrite G1. cbn [obind].
  assert (P1 : exists id d, (if dlt (dist i j) (ed a) then
       id <- pset n1 (x_id r) (nth_ - 1) i (Some j) ;; d <- pset n1 (x_d r) (nth_ - 1) i (dist i j) ;;
       bubble n1 i (nth_ - 1) id d
     else Ok (x_id r, x_d r)) = Ok (id, d) /\ cols id d (updf C i (step (C i) (dist i j) j))).
  { unfold step. rewrite E. rewrite last_last, removelast_last.
    destruct (dlt (dist i j) (ed a)) eqn:D.
    - destruct (dist i j) as [x|]; [|discriminate].
      destruct (cols_set _ _ C i (nth_ - 1) (Some (x, j)) HC Hi) as (id1 & d1 & S1 & S2 & HC1); [lia|].
      cbn [ei ed option_map fst snd] in S1, S2. rewrite S1. cbn [obind]. rewrite S2. cbn [obind].
      destruct (bubble_ok i Hi (nth_ - 1) id1 d1 _ A (Some (x, j)) [] HC1) as (id2 & d2 & E2 & HC2).
      + rewrite updf_eq, E. rewrite <- L. apply upd_app_at.
      + exact L.
      + exists id2, d2. split; [exact E2|]. eapply cols_ext; [exact HC2|]. intros i' Hi'. unfold updf.
        destruct (Nat.eqb_spec i' i); reflexivity.
    - exists (x_id r), (x_d r). split; [reflexivity|]. eapply cols_ext; [exact HC|].
      intros i' Hi'. unfold updf. destruct (Nat.eqb_spec i' i) as [->|]; [exact E|reflexivity]. }
  destruct P1 as (id & d & -> & HC'). cbn [obind]. unfold mirs in HR. unfold st, mirs.
  destruct no_mirror.
  - eexists. split; [reflexivity|]. cbn [x_id x_d x_rid x_rd]. split; [exact HC'|exact HR].
  - destruct HR as (V1 & V2). rewrite (repv_get _ _ _ j V1 Hj). cbn [obind]. unfold rstep.
    destruct (dlt (dist i j) (ed (R j))) eqn:D.
    + destruct (dist i j) as [x|]; [|discriminate].
      destruct (repv_set _ _ _ j (Some i) V2 Hj) as (rid & -> & V2'). cbn [obind].
      destruct (repv_set _ _ _ j (Some x) V1 Hj) as (rd & -> & V1'). cbn [obind].
      eexists. split; [reflexivity|]. cbn [x_id x_d x_rid x_rd]. split; [exact HC'|]. split.
      * eapply repv_ext; [exact V1'|]. intros j' _. unfold upd1, updf. destruct (Nat.eqb_spec j' j); reflexivity.
      * eapply repv_ext; [exact V2'|]. intros j' _. unfold upd1, updf. destruct (Nat.eqb_spec j' j); reflexivity.
    + eexists. split; [reflexivity|]. cbn [x_id x_d x_rid x_rd]. split; [exact HC'|]. split.
      * eapply repv_ext; [exact V1|]. intros j' _. unfold updf. destruct (Nat.eqb_spec j' j) as [->|]; reflexivity.
      * eapply repv_ext; [exact V2|]. intros j' _. unfold updf. destruct (Nat.eqb_spec j' j) as [->|]; reflexivity.
Qed.

(* the loops, purely *)
Definition colf (i j : nat) : list entry := fold_left (colstep dist self i) (seq 0 j) (repeat None nth_).
Definition mstep (j : nat) (cur : entry) (i : nat) : entry := if self && (i =? j) then cur else rstep cur (dist i j) i.
Definition mirf (b e j : nat) : entry := fold_left (mstep j) (seq b (e - b)) None.
Lemma mirf_S b i j : b <= i -> mirf b (i + 1) j = mstep j (mirf b i j) i.
Proof.
  intros H. unfold mirf. replace (i + 1 - b) with (S (i - b)) by lia. rewrite seq_S, fold_left_app.
  replace (b + (i - b)) with i by lia. reflexivity.
Qed.
Lemma colf_S i j : colf i (j + 1) = colstep dist self i (colf i j) j.
Proof. unfold colf. replace (j + 1) with (S j) by lia. rewrite seq_S, fold_left_app. reflexivity. Qed.

Lemma st_empty : st (empty_res nth_ n1 n2 no_mirror) (fun _ => repeat None nth_) (fun _ => None).
Proof.
  unfold empty_res. assert (E : forall k, nth k (repeat (@None (Z * nat)) nth_) None = None).
  { intros k. destruct (Nat.lt_ge_cases k nth_); [apply nth_repeat|apply nth_overflow; rewrite repeat_length; lia]. }
  split; [split; [|split]|].
  - intros i _. apply repeat_length.
  - eapply rep_ext; [apply rep_repeat|]. intros. cbn. rewrite E. reflexivity.
  - eapply rep_ext; [apply rep_repeat|]. intros. cbn. rewrite E. reflexivity.
  - unfold mirs. cbn [x_rid x_rd]. destruct no_mirror; [auto|]. split; apply repv_repeat.
Qed.

Lemma scan_ok tb te : tb <= te <= n1 ->
  exists r, scan dist nth_ n1 n2 self no_mirror tb te (empty_res nth_ n1 n2 no_mirror) = Ok r /\
    st r (fun i => if (tb <=? i) && (i <? te) then colf i n2 else repeat None nth_) (mirf tb te).
Proof.
  intros Hb. unfold scan.
  destruct (ofold_seq_inv (fun i r => st r (fun i' => if (tb <=? i') && (i' <? i) then colf i' n2 else repeat None nth_) (mirf tb i))
    (fun r i => ofold (fun r j => if self && (i =? j) then Ok r else work dist nth_ n1 no_mirror r i j) (seq 0 n2) r)
    (te - tb) tb (empty_res nth_ n1 n2 no_mirror)) as (r & E & H).
  - destruct st_empty as (H1 & H2). split.
    + eapply cols_ext; [exact H1|]. intros i Hi. cbv beta. destruct (Nat.leb_spec tb i), (Nat.ltb_spec i tb); try reflexivity; lia.
    + eapply mirs_ext; [exact H2|]. intros j Hj. unfold mirf. rewrite Nat.sub_diag. reflexivity.
  - intros i r Hi H.
    destruct (ofold_seq_inv (fun j r => st r (updf (fun i' => if (tb <=? i') && (i' <? i) then colf i' n2 else repeat None nth_) i (colf i j))
       (fun j' => if j' <? j then mirf tb (i + 1) j' else mirf tb i j'))
      (fun r j => if self && (i =? j) then Ok r else work dist nth_ n1 no_mirror r i j) n2 0 r) as (r' & E' & H').
    + destruct H as (H1 & H2). split.
      * eapply cols_ext; [exact H1|]. intros i' _. cbv beta. unfold updf. destruct (Nat.eqb_spec i' i) as [->|]; [|reflexivity].
        rewrite Nat.ltb_irrefl, andb_false_r. reflexivity.
      * eapply mirs_ext; [exact H2|]. intros j _. cbv beta. reflexivity.
    + intros j r1 Hj H1. destruct (self && (i =? j)) eqn:Es.
      * exists r1. split; [reflexivity|]. destruct H1 as (H1 & H2). split.
        -- eapply cols_ext; [exact H1|]. intros i' _. unfold updf. destruct (i' =? i); [|reflexivity].
           rewrite colf_S. unfold colstep. rewrite Es. reflexivity.
        -- eapply mirs_ext; [exact H2|]. intros j' Hj'. cbv beta.
           destruct (Nat.ltb_spec j' j), (Nat.ltb_spec j' (j + 1)); try reflexivity; try lia.
           rewrite mirf_S by lia. unfold mstep. replace j' with j by lia. rewrite Es. reflexivity.
      * destruct (work_ok r1 _ _ i j H1) as (r2 & E2 & H2 & H3); [lia|lia|]. exists r2. split; [exact E2|]. split.
        -- eapply cols_ext; [exact H2|]. intros i' _. unfold updf. rewrite Nat.eqb_refl. destruct (i' =? i); [|reflexivity].
           rewrite colf_S. unfold colstep. rewrite Es. reflexivity.
        -- eapply mirs_ext; [exact H3|]. intros j' Hj'. cbv beta. rewrite Nat.ltb_irrefl. unfold updf.
           destruct (Nat.eqb_spec j' j) as [->|N].
           ++ destruct (Nat.ltb_spec j (j + 1)); [|lia]. rewrite mirf_S by lia. unfold mstep. rewrite Es. reflexivity.
           ++ destruct (Nat.ltb_spec j' j), (Nat.ltb_spec j' (j + 1)); try reflexivity; lia.
    + exists r'. split; [exact E'|]. cbn [Nat.add] in H'. destruct H' as (H1 & H2). split.
      * eapply cols_ext; [exact H1|]. intros i' _. unfold updf.
        destruct (Nat.eqb_spec i' i) as [->|N].
        -- destruct (Nat.leb_spec tb i), (Nat.ltb_spec i (i + 1)); try lia. reflexivity.
        -- destruct (Nat.leb_spec tb i'), (Nat.ltb_spec i' i), (Nat.ltb_spec i' (i + 1)); try lia; reflexivity.
      * eapply mirs_ext; [exact H2|]. intros j Hj. cbv beta. destruct (Nat.ltb_spec j n2); [reflexivity|lia].
  - replace (tb + (te - tb)) with te in H by lia. exists r. auto.
Qed.
End S.
