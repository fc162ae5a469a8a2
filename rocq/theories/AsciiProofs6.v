From Coq Require Import Ascii NArith Lia.
From Verif Require Import Base VecModel VecProofs StrModel StrSpec StrProofs AsciiModel AsciiSpec AsciiProofs3.
Local Open Scope nat_scope.

Lemma align_pad s w : align_right s w " "%char = pad w s.
Proof.
  unfold align_right, pad. destruct (Nat.ltb_spec (length s) w); [reflexivity|].
  now replace (w - length s) with 0 by lia.
Qed.
Lemma pad_length w s : length (pad w s) = Nat.max w (length s).
Proof. unfold pad. rewrite app_length, repeat_length. lia. Qed.
Lemma pad_pad m w s : m <= w -> pad w (pad m s) = pad w s.
Proof.
  intro H. unfold pad at 1. rewrite pad_length. unfold pad. rewrite app_assoc, <- repeat_app. f_equal. f_equal. lia.
Qed.

(* --- the cells of a row --- *)
Lemma omapl_ex A B (f : A -> outcome B) l : (forall x, In x l -> exists y, f x = Ok y) ->
  exists ys, omapl f l = Ok ys /\ Forall2 (fun x y => f x = Ok y) l ys.
Proof.
  induction l as [|x l IH]; intro H; [exists []; split; [reflexivity|constructor]|].
  destruct (H x (or_introl eq_refl)) as (y & E). destruct IH as (ys & E2 & F); [intros; apply H; now right|].
  exists (y :: ys). cbn [omapl]. rewrite E. cbn [obind]. rewrite E2. split; [reflexivity|now constructor].
Qed.

Lemma oget_ex A (l : list A) i : i < length l -> exists x, oget l i = Ok x /\ nth_error l i = Some x.
Proof. intro H. unfold oget. destruct (nth_error l i) eqn:E; [eauto|]. apply nth_error_None in E. lia. Qed.

Lemma seq_nth_ok m k : k < m -> nth_error (seq 0 m) k = Some k.
Proof. intro. rewrite nth_error_seq. destruct (Nat.ltb_spec k m); [reflexivity|lia]. Qed.

Lemma concat_len A (ls : list (list A)) n : Forall (fun l => length l = n) ls -> length (concat ls) = length ls * n.
Proof. induction 1 as [|l ls H F IH]; [reflexivity|]. cbn [concat length]. rewrite app_length, IH. lia. Qed.
Lemma concat_nth A (ls : list (list A)) n : Forall (fun l => length l = n) ls -> forall i j l,
  nth_error ls i = Some l -> j < n -> nth_error (concat ls) (i * n + j) = nth_error l j.
Proof.
  induction 1 as [|l0 ls H F IH]; intros [|i] j l E L; try discriminate E; cbn [concat].
  - injection E as ->. rewrite nth_error_app1 by (cbn; lia). reflexivity.
  - rewrite nth_error_app2 by (cbn; lia). replace (S i * n + j - length l0) with (i * n + j) by (cbn; lia). now apply IH.
Qed.

Lemma wcol_cells_ok r i w : has_rows r w -> i < r -> exists cs, wcol_cells i w = Ok cs /\ col_row i w cs.
Proof.
  intros H L. destruct w as [l|r' m l|m vs]; cbn [has_rows wcol_cells] in *.
  - destruct (oget_ex _ l i) as (x & E & E2); [lia|]. rewrite E. cbn [obind]. exists [x]. split; [reflexivity|].
    split; [reflexivity|]. cbn. congruence.
  - destruct H as [-> Hl].
    destruct (omapl_ex _ _ (fun k => _ <- check (i <? r);; _ <- check (k <? m);; oget l (i * m + k)) (seq 0 m)) as (ys & E & F).
    { intros k I. apply in_seq in I. rewrite (proj2 (Nat.ltb_lt _ _) L), (proj2 (Nat.ltb_lt k m)) by lia. cbn [check obind].
      destruct (oget_ex _ l (i * m + k)) as (x & E & _); [nia|eauto]. }
    exists ys. split; [exact E|]. pose proof (Forall2_len _ _ _ _ _ F) as Ln. rewrite seq_length in Ln.
    split; [cbn; lia|]. intros k Hk. destruct (Forall2_nth _ _ _ _ _ F k k (seq_nth_ok m k Hk)) as (y & E1 & E2).
    rewrite (proj2 (Nat.ltb_lt _ _) L), (proj2 (Nat.ltb_lt k m)) in E2 by lia. cbn [check obind] in E2.
    apply oget_Ok in E2. congruence.
  - assert (G : forall k, k < m -> exists ys, omapl (fun v => oget (snd v) (i * snd (fst v) + k)) vs = Ok ys /\
       Forall2 (fun v y => nth_error (snd v) (i * m + k) = Some y) vs ys).
    { intros k Hk. destruct (omapl_ex _ _ (fun v => oget (snd v) (i * snd (fst v) + k)) vs) as (ys & E & F).
      - intros v I. rewrite Forall_forall in H. destruct (H v I) as (_ & -> & Lv).
        destruct (oget_ex _ (snd v) (i * m + k)) as (x & E & _); [nia|eauto].
      - exists ys. split; [exact E|]. clear E. induction F as [|v y vs ys E F IH]; constructor.
        + inversion H as [|? ? (_ & Em & _) H2]; subst. now apply oget_Ok in E.
        + apply IH. now inversion H. }
    destruct (omapl_ex _ _ (fun k => omapl (fun v => oget (snd v) (i * snd (fst v) + k)) vs) (seq 0 m)) as (ls & E & F).
    { intros k I. apply in_seq in I. destruct (G k) as (ys & E & _); [lia|eauto]. }
    exists (concat ls). rewrite E. cbn [obind]. split; [reflexivity|].
    pose proof (Forall2_len _ _ _ _ _ F) as Ln. rewrite seq_length in Ln.
    assert (Fl : Forall (fun l => length l = length vs) ls).
    { apply Forall_forall. intros l I. apply In_nth_error in I. destruct I as (k & Ek).
      assert (Hk : k < m) by (rewrite Ln; apply nth_error_Some; congruence).
      destruct (Forall2_nth _ _ _ _ _ F k k (seq_nth_ok m k Hk)) as (y & E1 & E2). rewrite Ek in E1. injection E1 as <-.
      destruct (G k Hk) as (ys & E3 & F3). rewrite E3 in E2. injection E2 as <-. now apply Forall2_len in F3. }
    split; [cbn [col_count]; rewrite (concat_len _ _ _ Fl); lia|].
    intros k q v Hk Ev. assert (Hq : q < length vs) by (apply nth_error_Some; congruence).
    destruct (Forall2_nth _ _ _ _ _ F k k (seq_nth_ok m k Hk)) as (l & E1 & E2).
    rewrite (concat_nth _ _ _ Fl k q l E1 Hq). destruct (G k Hk) as (ys & E3 & F3). rewrite E3 in E2. injection E2 as <-.
    destruct (Forall2_nth _ _ _ _ _ F3 q v Ev) as (y & E4 & E5). congruence.
Qed.

Lemma row_cells_ok r i cols : Forall (has_rows r) cols -> i < r ->
  exists cs, row_cells cols i = Ok cs /\ length cs = col_total cols /\
    exists parts, cs = concat parts /\ Forall2 (col_row i) cols parts.
Proof.
  intros H L. enough (G : exists parts, omapl (wcol_cells i) cols = Ok parts /\ Forall2 (col_row i) cols parts).
  { destruct G as (parts & E & F). unfold row_cells. rewrite E. cbn [obind]. exists (concat parts). split; [reflexivity|].
    split; [|eauto]. unfold col_total. clear - F. induction F as [|w p cols parts [Hl _] F IH]; [reflexivity|].
    cbn [concat map list_sum fold_right]. rewrite app_length, Hl. unfold list_sum in IH. now rewrite IH. }
  induction H as [|w cols Hw H IH]; [exists []; split; [reflexivity|constructor]|].
  destruct (wcol_cells_ok r i w Hw L) as (cs & E & C). destruct IH as (parts & E2 & F).
  exists (cs :: parts). cbn [omapl]. rewrite E. cbn [obind]. rewrite E2. split; [reflexivity|now constructor].
Qed.

Lemma rows_ok r cols : Forall (has_rows r) cols -> exists rows, table_of cols r rows /\
  Forall (fun row => length row = col_total cols) rows /\
  forall i cs, nth_error rows i = Some cs -> row_cells cols i = Ok cs.
Proof.
  intro H. destruct (omapl_ex _ _ (row_cells cols) (seq 0 r)) as (rows & _ & F).
  { intros i I. apply in_seq in I. destruct (row_cells_ok r i cols H) as (cs & E & _); [lia|eauto]. }
  pose proof (Forall2_len _ _ _ _ _ F) as Ln. rewrite seq_length in Ln.
  assert (G : forall i cs, nth_error rows i = Some cs -> row_cells cols i = Ok cs).
  { intros i cs E. assert (Hi : i < r) by (rewrite Ln; apply nth_error_Some; congruence).
    destruct (Forall2_nth _ _ _ _ _ F i i (seq_nth_ok r i Hi)) as (y & E1 & E2). congruence. }
  exists rows. split; [|split; [|exact G]].
  - split; [now symmetry|]. intros i cs E. assert (Hi : i < r) by (rewrite Ln; apply nth_error_Some; congruence).
    destruct (row_cells_ok r i cols H Hi) as (cs' & E' & _ & P). rewrite (G _ _ E) in E'. injection E' as <-. exact P.
  - apply Forall_forall. intros cs I. apply In_nth_error in I. destruct I as (i & E).
    assert (Hi : i < r) by (rewrite Ln; apply nth_error_Some; congruence).
    destruct (row_cells_ok r i cols H Hi) as (cs' & E' & Hl & _). rewrite (G _ _ E) in E'. injection E' as <-. exact Hl.
Qed.

Lemma check_size_ok r cols : Forall (has_rows r) cols -> forall r0 c0, r0 = 0 \/ r0 = r ->
  exists r1, ofold check_size cols (r0, c0) = Ok (r1, c0 + col_total cols) /\ (r1 = r \/ r1 = 0) /\
    (r1 <> r -> r0 = 0 /\ col_total cols = 0).
Proof.
  assert (S1 : forall r0 c0 d w, (r0 = 0 \/ r0 = r) -> d = r -> size_of (r0, c0) d w = Ok (r, c0 + w)).
  { intros r0 c0 d w H ->. unfold size_of. destruct (Nat.eqb_spec r0 0) as [->|N].
    - now rewrite Nat.eqb_refl.
    - destruct H as [->| ->]; [easy|]. now rewrite Nat.eqb_refl. }
  induction 1 as [|w cols Hw H IH]; intros r0 c0 C.
  - exists r0. cbn. rewrite Nat.add_0_r. split; [reflexivity|]. split; [tauto|]. intros X. split; [tauto|reflexivity].
  - cbn [ofold]. change (col_total (w :: cols)) with (col_count w + col_total cols).
    assert (G : exists r1, check_size (r0, c0) w = Ok (r1, c0 + col_count w) /\ (r1 = 0 \/ r1 = r) /\
       (r1 <> r -> r0 = 0 /\ col_count w = 0)).
    { destruct w as [l|r' m l|m vs]; cbn [check_size has_rows col_count] in *.
      - exists r. rewrite S1 by auto. split; [reflexivity|]. split; [tauto|easy].
      - exists r. destruct Hw as [-> _]. rewrite S1 by auto. split; [reflexivity|]. split; [tauto|easy].
      - clear IH H. revert r0 c0 C. induction Hw as [|v vs (E1 & E2 & _) Hw IH]; intros r0 c0 C.
        + exists r0. cbn. rewrite Nat.mul_0_r, Nat.add_0_r. split; [reflexivity|]. split; [tauto|]. intro X. tauto.
        + cbn [ofold length]. rewrite S1 by auto. cbn [obind]. destruct (IH r (c0 + snd (fst v))) as (r1 & -> & H1 & H2); [now right|].
          exists r1. split; [f_equal; f_equal; rewrite E2; lia|]. split; [tauto|]. intro X. destruct (H2 X) as [-> _].
          exfalso. destruct H1; congruence. }
    destruct G as (r1 & -> & C1 & N1). cbn [obind]. destruct (IH r1 (c0 + col_count w) C1) as (r2 & -> & C2 & N2).
    exists r2. split; [f_equal; f_equal; lia|]. split; [tauto|]. intro X. destruct (N2 X) as [-> E0].
    destruct (Nat.eq_dec 0 r) as [Y|Y]; [exfalso; destruct C2; congruence|]. destruct (N1 Y). split; [assumption|lia].
Qed.
