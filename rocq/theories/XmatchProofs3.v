(* Lemmas on cross matching, part 3: the nearest source in the other direction, the threads. *)
From Coq Require Import ZifyBool ZifyNat.
From Verif Require Import Base IndexModel IndexProofs VecModel VecSpec VecProofs VecProofs2 ImageModel ImageProofs MatModel MatProofs XmatchModel XmatchSpec XmatchProofs XmatchProofs2.

Section M.
Variables (dist : nat -> nat -> option Z) (self : bool).
Let flip := fun j i => dist i j.
Lemma mirf_col e j : [mirf dist self 0 e j] = fold_left (colstep flip self j) (seq 0 e) [None].
Proof.
  unfold mirf. rewrite Nat.sub_0_r. induction e as [|e IH]; [reflexivity|].
  rewrite seq_S, !fold_left_app, <- IH. cbn [fold_left Nat.add]. unfold mstep, colstep. rewrite (Nat.eqb_sym e j).
  destruct (self && (j =? e)); [reflexivity|]. unfold step, rstep, flip. cbn [last removelast rev insr].
  destruct (dlt (dist e j) _); reflexivity.
Qed.

(* a nearest candidate among b <= i < e *)
Definition cand (b e j : nat) (c : Z * nat) : Prop :=
  b <= snd c < e /\ (self && (snd c =? j)) = false /\ dist (snd c) j = Some (fst c).
Definition best (b e j : nat) (r : entry) : Prop :=
  match r with
  | None => forall c, ~ cand b e j c
  | Some c => cand b e j c /\ forall c', cand b e j c' -> (fst c <= fst c')%Z
  end.
Lemma mirf_best b e j : b <= e -> best b e j (mirf dist self b e j).
Proof.
  intros H. replace e with (b + (e - b)) by lia. induction (e - b) as [|n IH].
  - rewrite Nat.add_0_r. unfold mirf. rewrite Nat.sub_diag. cbn. intros c (Hc & _). lia.
  - replace (b + S n) with (b + n + 1) by lia. rewrite (mirf_S dist 1 self (le_n 1)) by lia. set (r := mirf dist self b (b + n) j) in *.
    assert (Hc : forall c, cand b (b + n + 1) j c <-> cand b (b + n) j c \/ (snd c = b + n /\ (self && (b + n =? j)) = false /\ dist (b + n) j = Some (fst c))).
    { intros [x i]. unfold cand. cbn [fst snd]. split.
      - intros (H1 & H2 & H3). destruct (Nat.eq_dec i (b + n)) as [->|]; [right; auto|left; split; [lia|auto]].
      - intros [(H1 & H2 & H3)|(-> & H2 & H3)]; (split; [lia|auto]). }
    unfold mstep. destruct (self && (b + n =? j)) eqn:Es.
    + destruct r as [c|]; cbn [best] in *.
      * destruct IH as (H1 & H2). split; [apply Hc; auto|]. intros c' H'. apply Hc in H' as [H'|(_ & H' & _)]; [auto|discriminate].
      * intros c H'. apply Hc in H' as [H'|(_ & H' & _)]; [exact (IH c H')|discriminate].
    + unfold rstep. destruct (dist (b + n) j) as [x|] eqn:Ed.
      2:{ cbn [dlt]. destruct r as [c|]; cbn [best] in *.
          - destruct IH as (H1 & H2). split; [apply Hc; auto|]. intros c' H'. apply Hc in H' as [H'|(_ & _ & H')]; [auto|discriminate].
          - intros c H'. apply Hc in H' as [H'|(_ & _ & H')]; [exact (IH c H')|discriminate]. }
      assert (Hnew : cand b (b + n + 1) j (x, b + n)) by (apply Hc; right; cbn; auto).
      destruct r as [c|]; cbn [ed option_map dlt].
      * cbn [best] in IH. destruct IH as (H1 & H2). destruct (Z.ltb_spec x (fst c)).
        -- split; [exact Hnew|]. intros c' H'. apply Hc in H' as [H'|(_ & _ & H')]; cbn [fst].
           ++ specialize (H2 c' H'). lia.
           ++ injection H' as <-. lia.
        -- split; [apply Hc; auto|]. intros c' H'. apply Hc in H' as [H'|(_ & _ & H')]; [auto|]. injection H' as <-. lia.
      * cbn [best] in *. split; [exact Hnew|]. intros c' H'. apply Hc in H' as [H'|(_ & _ & H')]; [destruct (IH c' H')|].
        injection H' as <-. cbn. lia.
Qed.
(* the merge of two threads *)
Definition msel (a b : entry) : entry := if dlt (ed a) (ed b) then a else b.
Lemma msel_best b m e j r1 r2 : b <= m <= e -> best b m j r1 -> best m e j r2 -> best b e j (msel r1 r2).
Proof.
  intros Hb H1 H2.
  assert (Hc : forall c, cand b e j c <-> cand b m j c \/ cand m e j c).
  { intros [x i]. unfold cand. cbn [fst snd]. split.
    - intros (A1 & A2 & A3). destruct (Nat.lt_ge_cases i m); [left|right]; (split; [lia|auto]).
    - intros [(A1 & A2 & A3)|(A1 & A2 & A3)]; (split; [lia|auto]). }
  unfold msel. destruct r1 as [c1|], r2 as [c2|]; cbn [ed option_map dlt best] in *.
  - destruct H1 as (A1 & A2), H2 as (B1 & B2). destruct (Z.ltb_spec (fst c1) (fst c2)); cbn [best].
    + split; [apply Hc; auto|]. intros c H'. apply Hc in H' as [H'|H']; [auto|]. specialize (B2 c H'). lia.
    + split; [apply Hc; auto|]. intros c H'. apply Hc in H' as [H'|H']; [|auto]. specialize (A2 c H'). lia.
  - destruct H1 as (A1 & A2). split; [apply Hc; auto|]. intros c H'. apply Hc in H' as [H'|H']; [auto|]. destruct (H2 c H').
  - destruct H2 as (B1 & B2). split; [apply Hc; auto|]. intros c H'. apply Hc in H' as [H'|H']; [|auto]. destruct (H1 c H').
  - intros c H'. apply Hc in H' as [H'|H']; [exact (H1 c H')|exact (H2 c H')].
Qed.
Lemma best_dist b e j r1 r2 : best b e j r1 -> best b e j r2 -> ed r1 = ed r2.
Proof.
  destruct r1 as [c1|], r2 as [c2|]; cbn.
  - intros (A1 & A2) (B1 & B2). specialize (A2 _ B1). specialize (B2 _ A1). f_equal. lia.
  - intros (A1 & _) B. destruct (B _ A1).
  - intros A (B1 & _). destruct (A _ B1).
  - reflexivity.
Qed.
End M.

Section S.
Variables (dist : nat -> nat -> option Z) (nth_ n1 n2 : nat) (self no_mirror : bool).
Hypothesis Hn : 1 <= nth_.
Hypothesis Hbig : (Z.of_nat n1 <= max_ptrs)%Z.

Lemma copy_cols_ok {A} tb te (from to : list A) F T : tb < te <= n1 -> rep nth_ n1 from F -> rep nth_ n1 to T ->
  exists to', copy_cols nth_ n1 tb te from to = Ok to' /\
    rep nth_ n1 to' (fun k i => if (tb <=? i) && (i <? te) then F k i else T k i).
Proof.
  intros Hb HF HT. unfold copy_cols.
  assert (M : (max_ptrs < two63)%Z) by (unfold max_ptrs, two63; lia).
  assert (Ew : wrap64 (Z.of_nat te - 1) = (Z.of_nat te - 1)%Z).
  { apply wrap64_small. unfold two63, two64 in *. lia. }
  rewrite Ew. rewrite rng_loop_valid by (split; [exact Hbig|lia]). cbn [sub_indices obind].
  rewrite map_map. replace (map (fun x => Z.to_nat (Z.of_nat x)) (seq (Z.to_nat (Z.of_nat tb)) (Z.to_nat (Z.of_nat te - 1 + 1 - Z.of_nat tb)))) with (seq tb (te - tb)).
  2:{ replace (Z.to_nat (Z.of_nat tb)) with tb by lia. replace (Z.to_nat (Z.of_nat te - 1 + 1 - Z.of_nat tb)) with (te - tb) by lia.
      rewrite <- (map_id (seq tb (te - tb))) at 1. apply map_ext. intros. lia. }
  rewrite ofold_list_prod.
  destruct (ofold_seq_inv (fun k to => rep nth_ n1 to (fun k' i => if (k' <? k) && ((tb <=? i) && (i <? te)) then F k' i else T k' i))
    (fun s x => ofold (fun s0 y => a <- at2 n1 from x y ;; pset n1 s0 x y a) (seq tb (te - tb)) s) nth_ 0 to) as (to' & E & H).
  - eapply rep_ext; [exact HT|]. intros. reflexivity.
  - intros k s Hk Hs.
    destruct (ofold_seq_inv (fun i to => rep nth_ n1 to (fun k' i' => if ((k' <? k) && ((tb <=? i') && (i' <? te))) || ((k' =? k) && ((tb <=? i') && (i' <? i))) then F k' i' else T k' i'))
      (fun s0 y => a <- at2 n1 from k y ;; pset n1 s0 k y a) (te - tb) tb s) as (s' & E' & H').
    + eapply rep_ext; [exact Hs|]. intros k' i' _ _. cbv beta.
      replace ((k' =? k) && ((tb <=? i') && (i' <? tb))) with false by lia. rewrite orb_false_r. reflexivity.
    + intros i s0 Hi Hs0. rewrite (rep_get _ _ _ _ k i HF) by lia. cbn [obind].
      destruct (rep_set _ _ _ _ k i (F k i) Hs0) as (s1 & -> & Hs1); [lia|lia|]. exists s1. split; [reflexivity|].
      eapply rep_ext; [exact Hs1|]. intros k' i' Hk' Hi'. unfold upd2.
      destruct (Nat.eqb_spec k' k) as [->|Nk]; cbn [andb].
      * destruct (Nat.eqb_spec i' i) as [->|Ni].
        -- replace (_ || _) with true by lia. reflexivity.
        -- rewrite Nat.ltb_irrefl. cbn [andb orb].
           replace ((tb <=? i') && (i' <? i + 1)) with ((tb <=? i') && (i' <? i)) by lia. reflexivity.
      * reflexivity.
    + exists s'. split; [exact E'|]. eapply rep_ext; [exact H'|]. intros k' i' Hk' Hi'.
      replace (tb + (te - tb)) with te by lia.
      replace (((k' <? k) && ((tb <=? i') && (i' <? te))) || ((k' =? k) && ((tb <=? i') && (i' <? te)))) with ((k' <? k + 1) && ((tb <=? i') && (i' <? te))) by lia.
      reflexivity.
  - exists to'. split; [exact E|]. eapply rep_ext; [exact H|]. intros k i Hk Hi. cbn [Nat.add].
    destruct (Nat.ltb_spec k nth_); [reflexivity|lia].
Qed.

Lemma merge_mirror_ok t v r R1 R2 : mirs n2 no_mirror (x_rid v) (x_rd v) R1 -> mirs n2 no_mirror (x_rid r) (x_rd r) R2 ->
  exists rid rd, merge_mirror n2 no_mirror t v r = Ok (rid, rd) /\
    mirs n2 no_mirror rid rd (fun j => if t =? 0 then R1 j else msel (R2 j) (R1 j)).
Proof.
  intros H1 H2. unfold merge_mirror. unfold mirs in *. destruct no_mirror.
  - exists (x_rid r), (x_rd r). auto.
  - destruct (Nat.eqb_spec t 0) as [->|Nt].
    + exists (x_rid v), (x_rd v). auto.
    + destruct H1 as (A1 & A2), H2 as (B1 & B2).
      destruct (ofold_seq_inv (fun j '(rid, rd) => repv n2 rd (fun j' => ed (if j' <? j then msel (R2 j') (R1 j') else R2 j')) /\
           repv n2 rid (fun j' => ei (if j' <? j then msel (R2 j') (R1 j') else R2 j')))
        (fun s j => let '(rid, rd) := s in a <- oget rd j ;; b <- oget (x_rd v) j ;;
          if dlt a b then Ok (rid, rd)
          else ib <- oget (x_rid v) j ;; rid <- oset rid j ib ;; rd <- oset rd j b ;; Ok (rid, rd)) n2 0 (x_rid r, x_rd r)) as ((rid & rd) & E & H).
      * split; assumption.
      * intros j (rid & rd) Hj (H1 & H2). rewrite (repv_get _ _ _ j H1), (repv_get _ _ _ j A1) by lia. cbn [obind].
        rewrite Nat.ltb_irrefl.
        destruct (dlt (ed (R2 j)) (ed (R1 j))) eqn:D.
        -- exists (rid, rd). split; [reflexivity|]. split.
           ++ eapply repv_ext; [exact H1|]. intros j' _. cbv beta.
              destruct (Nat.ltb_spec j' j), (Nat.ltb_spec j' (j + 1)); try reflexivity; try lia.
              replace j' with j by lia. unfold msel. rewrite D. reflexivity.
           ++ eapply repv_ext; [exact H2|]. intros j' _. cbv beta.
              destruct (Nat.ltb_spec j' j), (Nat.ltb_spec j' (j + 1)); try reflexivity; try lia.
              replace j' with j by lia. unfold msel. rewrite D. reflexivity.
        -- rewrite (repv_get _ _ _ j A2) by lia. cbn [obind].
           destruct (repv_set _ _ _ j (ei (R1 j)) H2) as (rid' & -> & H2'); [lia|]. cbn [obind].
           destruct (repv_set _ _ _ j (ed (R1 j)) H1) as (rd' & -> & H1'); [lia|]. cbn [obind].
           exists (rid', rd'). split; [reflexivity|]. split.
           ++ eapply repv_ext; [exact H1'|]. intros j' _. unfold upd1.
              destruct (Nat.eqb_spec j' j) as [->|Nj].
              ** destruct (Nat.ltb_spec j (j + 1)); [|lia]. unfold msel. rewrite D. reflexivity.
              ** destruct (Nat.ltb_spec j' j), (Nat.ltb_spec j' (j + 1)); try reflexivity; lia.
           ++ eapply repv_ext; [exact H2'|]. intros j' _. unfold upd1.
              destruct (Nat.eqb_spec j' j) as [->|Nj].
              ** destruct (Nat.ltb_spec j (j + 1)); [|lia]. unfold msel. rewrite D. reflexivity.
              ** destruct (Nat.ltb_spec j' j), (Nat.ltb_spec j' (j + 1)); try reflexivity; lia.
      * exists rid, rd. split; [exact E|]. cbn [Nat.add] in H. destruct H as (H1 & H2). split.
        -- eapply repv_ext; [exact H1|]. intros j Hj. cbv beta. destruct (Nat.ltb_spec j n2); [reflexivity|lia].
        -- eapply repv_ext; [exact H2|]. intros j Hj. cbv beta. destruct (Nat.ltb_spec j n2); [reflexivity|lia].
Qed.

(* what a complete result is *)
Definition complete (r : xres) (R : nat -> entry) : Prop :=
  st nth_ n1 n2 no_mirror r (fun i => colf dist nth_ self i n2) R /\ (forall j, best dist self 0 n1 j (R j)).

Lemma brute_one thread a : thread <= 1 -> exists r, brute dist nth_ n1 n2 self no_mirror thread a = Ok r /\
  complete r (mirf dist self 0 n1).
Proof.
  intros Ht. unfold brute. destruct (Nat.leb_spec thread 1); [|lia].
  destruct (scan_ok dist nth_ n1 n2 self no_mirror Hn 0 n1) as (r & E & H1 & H2); [lia|].
  exists r. split; [exact E|]. split; [|intros j; apply mirf_best; lia]. split; [|exact H2].
  eapply cols_ext; [exact H1|]. intros i Hi. cbv beta. destruct (Nat.leb_spec 0 i), (Nat.ltb_spec i n1); try lia. reflexivity.
Qed.

Lemma brute_many thread a : 2 <= thread -> 1 <= a -> (thread - 1) * a < n1 ->
  exists r R, brute dist nth_ n1 n2 self no_mirror thread a = Ok r /\ complete r R.
Proof.
  intros Ht Ha Hlast. unfold brute. destruct (Nat.leb_spec thread 1); [lia|].
  set (bound := fun t => if t =? thread then n1 else t * a).
  destruct (ofold_seq_inv (fun t r => exists R,
      st nth_ n1 n2 no_mirror r (fun i => if i <? bound t then colf dist nth_ self i n2 else repeat None nth_) R /\
      forall j, best dist self 0 (bound t) j (R j))
    (fun r t => let tbeg := t * a in
        let tend := if t =? thread - 1 then n1 else t * a + a in
        v <- scan dist nth_ n1 n2 self no_mirror tbeg tend (empty_res nth_ n1 n2 no_mirror) ;;
        merge nth_ n1 n2 no_mirror t tbeg tend v r) thread 0 (empty_res nth_ n1 n2 no_mirror)) as (r & E & R & H1 & H2).
  - assert (B0 : bound 0 = 0) by (unfold bound; destruct (Nat.eqb_spec 0 thread); lia).
    exists (fun _ => None). rewrite B0. split.
    + destruct (st_empty dist nth_ n1 n2 no_mirror Hn) as (H1 & H2). split; [|exact H2].
      eapply cols_ext; [exact H1|]. intros. reflexivity.
    + intros j c (Hc & _). lia.
  - intros t r Hk (R & H1 & H2). cbv zeta.
    assert (Bt : bound t = t * a) by (unfold bound; destruct (Nat.eqb_spec t thread); lia).
    set (te := if t =? thread - 1 then n1 else t * a + a).
    assert (Bt' : bound (t + 1) = te).
    { unfold bound, te. destruct (Nat.eqb_spec (t + 1) thread), (Nat.eqb_spec t (thread - 1)); try lia. }
    assert (Hte : t * a < te <= n1).
    { unfold te. destruct (Nat.eqb_spec t (thread - 1)) as [->|]; [lia|]. nia. }
    destruct (scan_ok dist nth_ n1 n2 self no_mirror Hn (t * a) te) as (v & -> & Hv1 & Hv2); [lia|]. cbn [obind].
    unfold merge. destruct H1 as ((L1 & D1 & I1) & M1). destruct Hv1 as (Lv & Dv & Iv).
    destruct (copy_cols_ok (t * a) te _ _ _ _ Hte Iv I1) as (id & -> & HI). cbn [obind].
    destruct (copy_cols_ok (t * a) te _ _ _ _ Hte Dv D1) as (d & -> & HD). cbn [obind].
    destruct (merge_mirror_ok t v r _ _ Hv2 M1) as (rid & rd & -> & HM). cbn [obind].
    eexists. split; [reflexivity|].
    exists (fun j => if t =? 0 then mirf dist self (t * a) te j else msel (R j) (mirf dist self (t * a) te j)).
    rewrite Bt'. split.
    + split; [|exact HM]. cbn [x_id x_d]. split; [|split].
      * intros i Hi. destruct (i <? te); [|apply repeat_length]. unfold colf. rewrite colstep_topn by exact Hn. apply topn_length.
      * eapply rep_ext; [exact HD|]. intros k i Hk' Hi. cbv beta. rewrite Bt.
        destruct (Nat.leb_spec (t * a) i), (Nat.ltb_spec i te), (Nat.ltb_spec i (t * a)); try lia; reflexivity.
      * eapply rep_ext; [exact HI|]. intros k i Hk' Hi. cbv beta. rewrite Bt.
        destruct (Nat.leb_spec (t * a) i), (Nat.ltb_spec i te), (Nat.ltb_spec i (t * a)); try lia; reflexivity.
    + intros j. rewrite Bt in H2. destruct (Nat.eqb_spec t 0) as [->|].
      * apply mirf_best. lia.
      * eapply msel_best; [|apply H2|apply mirf_best; lia]. lia.
  - cbn [Nat.add] in H1, H2. assert (Bn : bound thread = n1) by (unfold bound; rewrite Nat.eqb_refl; reflexivity).
    rewrite Bn in H1, H2. exists r, R. split; [exact E|]. split; [|exact H2]. destruct H1 as (H1 & HM). split; [|exact HM].
    eapply cols_ext; [exact H1|]. intros i Hi. cbv beta. destruct (Nat.ltb_spec i n1); [reflexivity|lia].
Qed.

Lemma brute_idle thread : 2 <= thread -> 1 <= n1 -> brute dist nth_ n1 n2 self no_mirror thread 0 = CheckFail.
Proof.
  intros Ht H1. unfold brute. destruct (Nat.leb_spec thread 1); [lia|].
  destruct thread as [|[|thread]]; try lia. cbn [seq ofold]. cbv zeta.
  destruct (scan_ok dist nth_ n1 n2 self no_mirror Hn 0 0) as (v & E & _); [lia|].
  replace (0 =? S (S thread) - 1) with false by lia. change (0 * 0 + 0) with 0. change (0 * 0) with 0. rewrite E. cbn [obind].
  unfold merge, copy_cols. change (wrap64 (Z.of_nat 0 - 1)) with 18446744073709551615%Z.
  unfold rng_loop, check_bounds. destruct (Z.ltb_spec 18446744073709551615 (Z.of_nat n1)); [|reflexivity].
  unfold max_ptrs in Hbig. lia.
Qed.
End S.
