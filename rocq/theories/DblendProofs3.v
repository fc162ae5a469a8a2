(* Lemmas on segmentation with deblending, part 3: the order of the pixels, and the map before islands are erased. *)
From Coq Require Import NArith QArith ZifyBool ZifyNat Permutation Lqa.
From Verif Require Import Base IndexModel IndexProofs VecModel VecProofs VecProofs2 ImageModel ImageSpec ImageProofs
  ImageProofs2 ImageProofs3 ImageProofs4 SegModel SegSpec SegProofs SegProofs2 SegProofs4 OrderModel OrderSpec OrderProofs SdistSpec
  DblendModel DblendSpec DblendProofs DblendProofs2.
Local Open Scope nat_scope.

Lemma dlt_below x y : dlt x y = true <-> below x y.
Proof.
  unfold below. destruct x as [a| | |], y as [b| | |]; cbn [dlt level]; (split; intro H; try discriminate; try reflexivity; try (left; lia);
    try (destruct H as [H|(c & d & H1 & H2 & _)]; [lia|discriminate])).
  - right. exists a, b. split; [reflexivity|]. split; [reflexivity|]. apply Qnot_le_lt. intro X. apply Qle_bool_iff in X. rewrite X in H. discriminate.
  - destruct H as [H|(c & d & H1 & H2 & H3)]; [lia|]. injection H1 as <-. injection H2 as <-.
    destruct (Qle_bool b a) eqn:E; [|reflexivity]. apply Qle_bool_iff in E. lra.
Qed.
Lemma below_irrefl x : ~ below x x.
Proof. intros [H|(a & b & H1 & H2 & H3)]; [lia|]. assert (a = b) by congruence. subst. lra. Qed.
Lemma below_asym x y : below x y -> ~ below y x.
Proof.
  intros [H|(a & b & -> & -> & H3)] [G|(c & d & G1 & G2 & G3)]; try (cbn in *; lia).
  - subst. cbn in H. lia.
  - injection G1 as <-. injection G2 as <-. lra.
Qed.
Lemma below_split x y z : below x z -> below x y \/ below y z.
Proof.
  intros [H|(a & b & -> & -> & H3)].
  - unfold below. destruct (Nat.lt_ge_cases (level x) (level y)); [auto|]. right. left. lia.
  - destruct y as [c| | |]; unfold below; cbn [level]; try (left; left; lia); try (right; left; lia).
    destruct (Qlt_le_dec a c) as [X|X]; [left; right; exists a, c; auto|]. right. right. exists c, b. split; [reflexivity|]. split; [reflexivity|]. lra.
Qed.
Lemma dlt_weak : weak_order dlt.
Proof.
  split.
  - intros x y H. apply dlt_below in H. destruct (dlt y x) eqn:E; [|reflexivity]. apply dlt_below in E. destruct (below_asym _ _ H E).
  - intros x y z H. rewrite !dlt_below. apply below_split. apply dlt_below. exact H.
Qed.
Lemma above_below x y t : level y <= 2 -> above x t = true -> ~ below y x -> above y t = true.
Proof.
  intros LY H NB. destruct x as [a| | |], y as [b| | |]; cbn [above level] in *; try lia; try discriminate; try reflexivity;
    try (destruct NB; left; cbn; lia).
  apply Qle_bool_iff. apply Qle_bool_iff in H. destruct (Qlt_le_dec b a) as [X|X]; [|lra].
  destruct NB. right. exists b, a. auto.
Qed.

Lemma nodup_app_r {A} (l1 l2 : list A) : NoDup (l1 ++ l2) -> NoDup l2.
Proof. induction l1 as [|x l1 IH]; [auto|]. intro H. inversion H. auto. Qed.

Section Order.
Context (n m : nat) (im : list dbl) (Lim : length im = n * m).
Notation ing := (ing n m).
Notation pos := (pos m).
Notation val := (val m).
Notation vd := (val Nan im).

Definition prec (p q : point) : Prop := below (vd q) (vd p) \/ ~ below (vd p) (vd q) /\ ~ below (vd q) (vd p) /\ pos q < pos p.
Lemma prec_asym p q : prec p q -> ~ prec q p.
Proof.
  unfold prec. intros [A|(A & B & C)] [D|(D & E & F)].
  - exact (below_asym _ _ A D).
  - auto.
  - auto.
  - lia.
Qed.
Lemma order_ok : exists L, sort dlt im = rev (map pos L) /\ NoDup L /\ (forall p, In p L <-> ing p) /\
  forall a x b y c, L = a ++ x :: b ++ y :: c -> prec x y.
Proof.
  destruct (sort_stable dlt dlt_weak im) as [PM SS]. set (sid := sort dlt im) in *.
  assert (IN : forall k, In k sid <-> k < n * m).
  { intro k. split; intro H.
    - apply (Permutation_in _ PM) in H. apply in_seq in H. lia.
    - apply (Permutation_in _ (Permutation_sym PM)). apply in_seq. lia. }
  assert (ND : NoDup sid) by (apply (Permutation_NoDup (Permutation_sym PM)), seq_NoDup).
  set (up := fun k => (k / m, k mod m)).
  assert (UP : forall k, k < n * m -> ing (up k) /\ pos (up k) = k).
  { intros k H. unfold up, SegProofs.ing, SegProofs.pos. cbn [fst snd]. assert (m <> 0) by (intros ->; lia).
    split; [split; [apply Nat.div_lt_upper_bound; lia|apply Nat.mod_upper_bound; lia]|]. pose proof (Nat.div_mod k m ltac:(lia)). lia. }
  exists (rev (map up sid)).
  assert (ES : map pos (map up sid) = sid).
  { rewrite map_map. transitivity (map (fun k => k) sid); [|apply map_id]. apply map_ext_in. intros k H. apply UP, IN, H. }
  assert (E1 : sid = rev (map pos (rev (map up sid)))).
  { rewrite map_rev, rev_involutive. symmetry. exact ES. }
  split; [exact E1|]. split; [|split].
  - apply NoDup_rev. apply (NoDup_map_inv pos). rewrite ES. exact ND.
  - intro p. rewrite <- in_rev, in_map_iff. split.
    + intros (k & <- & H). apply UP, IN, H.
    + intro Ip. exists (pos p). pose proof (ing_pos n m p Ip) as X. destruct (UP (pos p) X) as [A B]. split; [|apply IN; exact X].
      apply (pos_eq n m); auto.
  - intros a x b y c E. assert (E2 : sid = rev (map pos c) ++ pos y :: rev (map pos b) ++ pos x :: rev (map pos a)).
    { rewrite E1, E, !map_app. cbn [map]. rewrite map_app. cbn [map]. rewrite rev_app_distr. cbn [rev]. rewrite rev_app_distr. cbn [rev].
      repeat (rewrite <- app_assoc; cbn [app]). reflexivity. }
    assert (Ix : ing x /\ ing y).
    { assert (X : forall z, In z (rev (map up sid)) -> ing z).
      { intros z Hz. rewrite <- in_rev, in_map_iff in Hz. destruct Hz as (k & <- & Hk). apply UP, IN, Hk. }
      split; apply X; rewrite E, !in_app_iff; cbn [In]; rewrite ?in_app_iff; cbn [In]; auto. }
    destruct Ix as [Ix Iy].
    destruct (SS (length c) (length c + 1 + length b) (pos y) (pos x) (vd y) (vd x)) as [A B].
    + lia.
    + rewrite E2, nth_error_app2 by (rewrite rev_length, map_length; lia). rewrite rev_length, map_length, Nat.sub_diag. reflexivity.
    + rewrite E2, nth_error_app2 by (rewrite rev_length, map_length; lia). rewrite rev_length, map_length.
      replace (length c + 1 + length b - length c) with (S (length b)) by lia. cbn [nth_error].
      rewrite nth_error_app2 by (rewrite rev_length, map_length; lia). rewrite rev_length, map_length, Nat.sub_diag. reflexivity.
    + apply (nth_error_val n m); auto.
    + apply (nth_error_val n m); auto.
    + unfold prec. destruct (dlt (vd y) (vd x)) eqn:D.
      * left. apply dlt_below. exact D.
      * right. rewrite <- !dlt_below. split; [congruence|]. split; [congruence|]. apply B. split; assumption.
Qed.

(* the pixels that are segmented *)
Definition brt (t : Q) (p : point) : Prop :=
  ing p /\ (exists q, vd p = Fin q /\ (t <= q)%Q) /\ exists r, ing r /\ prec p r.

Context (P : params) (F0 : 0 < p_first P) (old_ids : list nat) (NM : n * m <> 0).
Lemma split_two {A} (L : list A) x y : In x L -> In y L -> x <> y ->
  (exists a b c, L = a ++ x :: b ++ y :: c) \/ (exists a b c, L = a ++ y :: b ++ x :: c).
Proof.
  intros Hx Hy N. apply in_split in Hx. destruct Hx as (l1 & l2 & ->). apply in_app_iff in Hy. destruct Hy as [Hy|[Hy|Hy]].
  - right. apply in_split in Hy. destruct Hy as (a & b & ->). exists a, b, l2. rewrite <- app_assoc. reflexivity.
  - contradiction.
  - left. apply in_split in Hy. destruct Hy as (b & c & ->). exists l1, b, c. reflexivity.
Qed.
Lemma detection : exists done b O ipos, let sid := sort dlt im in
  skip im sid (length sid - 1) = Ok ipos /\
  detect n m P im sid ipos (Blend (repeat 0 (n * m)) (repeat 0 (n * m)) (p_first P) old_ids [] []) = Ok b /\
  dinv n m P done (b_seg b) O /\ state m P old_ids b O /\ (forall p, In p done <-> brt (p_detect P) p) /\
  forall a p c, done = a ++ p :: c -> forall q, In q done -> (In q a <-> prec q p).
Proof.
  destruct order_ok as (L & ES & ND & IN & DESC). cbv zeta. set (sid := sort dlt im) in *.
  assert (LL : L <> []).
  { intros ->. cbn in ES. assert (length sid = 0) by (rewrite ES; reflexivity).
    pose proof (Permutation_length (sort_perm dlt im)) as X. rewrite seq_length in X. fold sid in X. lia. }
  assert (LS : length sid = length L) by (rewrite ES, rev_length, map_length; reflexivity).
  destruct (skip_ok n m P F0 im Lim L LL ltac:(intros p Hp; apply IN; exact Hp) sid) as (R0 & R & E0 & NR & EK & HF & HT).
  { exists []. exact ES. }
  destruct (detect_ok n m P F0 old_ids im Lim R [] (Blend (repeat 0 (n * m)) (repeat 0 (n * m)) (p_first P) old_ids [] []) [] NR)
    with (sid := sid) as (R1 & R2 & b & O & ER & NR2 & ED & J & ST & HB & HE).
  - cbn [app]. rewrite E0 in ND. apply nodup_app_r in ND. exact ND.
  - intros p Hp. apply IN. rewrite E0. apply in_app_iff. auto.
  - exists R0. rewrite <- E0. exact ES.
  - apply dinv_nil; assumption.
  - unfold state. cbn [b_id b_ids b_orig b_peak length seq map]. rewrite app_nil_r. split; [lia|auto].
  - apply repeat_length.
  - intros q _. left. cbn [b_vis]. unfold SegProofs.val. destruct (nth_in_or_default (pos q) (repeat 0 (n * m)) 0) as [H|H]; [|exact H].
    apply repeat_spec in H. exact H.
  - cbn [app] in J. exists R1, b, O, (length R - 1). split; [rewrite LS; exact EK|]. split; [exact ED|]. split; [exact J|]. split; [exact ST|].
    assert (EL : L = R0 ++ R1 ++ R2) by (rewrite E0, ER; reflexivity).
    assert (LATER : forall p q, In p R1 -> In q R2 -> prec p q).
    { intros p q Hp Hq. apply in_split in Hp, Hq. destruct Hp as (a1 & a2 & E1), Hq as (c1 & c2 & E2).
      apply (DESC (R0 ++ a1) p (a2 ++ c1) q c2). rewrite EL, E1, E2. repeat (rewrite <- app_assoc; cbn [app]). reflexivity. }
    split.
    + intro p. split.
      * intro Hp. assert (Hp' : In p L) by (rewrite EL, !in_app_iff; auto). split; [apply IN; exact Hp'|].
        destruct R2 as [|r R2']; [congruence|]. split.
        -- pose proof (HB p Hp) as B. assert (LV : level (vd p) <= 1).
           { destruct HT as [HT|(h & t & HT & FH)].
             - exfalso. rewrite ER in HT. rewrite app_length in HT. cbn [length] in HT. destruct R1; [destruct Hp|cbn in HT; lia].
             - destruct (vd h) as [vh| | |] eqn:EH; try discriminate FH. destruct (prod_eq_dec_nat h p) as [<-|NE]; [rewrite EH; cbn; lia|].
               assert (X : prec h p).
               { rewrite ER in HT. destruct R1 as [|h' R1']; [destruct Hp|]. cbn [app] in HT. injection HT as -> HT.
                 destruct Hp as [Hp|Hp]; [contradiction|]. apply in_split in Hp. destruct Hp as (u & w & Hp).
                 apply (DESC R0 h u p (w ++ r :: R2')). rewrite EL, Hp. cbn [app]. rewrite <- app_assoc. reflexivity. }
               unfold prec in X. rewrite EH in X. destruct (vd p) as [vp| | |] eqn:EP; cbn [level]; try lia;
                 (destruct X as [[X|(x1 & x2 & X1 & X2 & _)]|(X & _)]; [cbn in X; lia|discriminate|destruct X; left; cbn; lia]). }
           destruct (vd p) as [vp| | |]; cbn in LV, B; try lia; try discriminate. exists vp. split; [reflexivity|]. apply Qle_bool_iff. exact B.
        -- exists r. split; [apply IN; rewrite EL, !in_app_iff; cbn; auto|]. apply LATER; [exact Hp|left; reflexivity].
      * intros (Ip & (v & Ev & Tv) & r & Ir & Pr). apply IN in Ip, Ir. rewrite EL, !in_app_iff in Ip. destruct Ip as [Hp|[Hp|Hp]].
        -- apply HF in Hp. rewrite Ev in Hp. discriminate.
        -- exact Hp.
        -- exfalso. assert (AP : above (vd p) (p_detect P) = true) by (rewrite Ev; cbn [above]; apply Qle_bool_iff; exact Tv).
           assert (CASE : length R2 = 1 \/ exists h t, R2 = h :: t /\ above (vd h) (p_detect P) = false) by exact HE.
           destruct CASE as [C|(h & t & C & BF)].
           ++ destruct R2 as [|p' [|? ?]]; try (cbn in C; lia). destruct Hp as [->|[]].
              assert (r <> p). { intros ->. apply (prec_asym p p Pr Pr). }
              rewrite EL, !in_app_iff in Ir. assert (Hr : In r (R0 ++ R1)).
              { rewrite in_app_iff. destruct Ir as [X|[X|[X|[]]]]; auto. congruence. }
              apply in_split in Hr. destruct Hr as (u & w & Hr). apply (prec_asym p r Pr). apply (DESC u r w p []).
              rewrite EL, app_assoc, Hr, <- app_assoc. reflexivity.
           ++ rewrite C in Hp. destruct Hp as [->|Hp]; [congruence|]. apply in_split in Hp. destruct Hp as (u & w & Hp).
              assert (X : prec h p).
              { apply (DESC (R0 ++ R1) h u p w). rewrite EL, C, Hp. rewrite <- app_assoc. reflexivity. }
              assert (LH : level (vd h) <= 2).
              { destruct HT as [HT|(h0 & t0 & HT & FH)].
                - exfalso. rewrite ER, app_length, C, Hp in HT. cbn [length] in HT. rewrite app_length in HT. cbn in HT. lia.
                - destruct (vd h0) as [vh| | |] eqn:EH; try discriminate FH. destruct (prod_eq_dec_nat h0 h) as [<-|NE]; [rewrite EH; cbn; lia|].
                  assert (Y : prec h0 h).
                  { rewrite ER, C in HT. destruct R1 as [|h' R1']; cbn [app] in HT; injection HT as Z HT; [congruence|]. subst h'.
                    apply (DESC R0 h0 R1' h t). rewrite EL, C. reflexivity. }
                  unfold prec in Y. rewrite EH in Y. destruct (vd h) as [vp| | |] eqn:EP; cbn [level]; try lia.
                  destruct Y as [[Y|(x1 & x2 & X1 & X2 & _)]|(Y & _)]; [cbn in Y; lia|discriminate|destruct Y; left; cbn; lia]. }
              rewrite (above_below (vd p) (vd h) _ LH AP) in BF; [discriminate|].
              intro Z. destruct X as [X|(X & _ & _)]; [exact (below_asym _ _ X Z)|exact (X Z)].
    + intros a p c E q Hq. split.
      * intro Ha. apply in_split in Ha. destruct Ha as (u & w & ->). apply (DESC (R0 ++ u) q w p (c ++ R2)).
        rewrite EL, E. repeat (rewrite <- app_assoc; cbn [app]). reflexivity.
      * intro X. rewrite E in Hq. apply in_app_iff in Hq. destruct Hq as [Hq|[<-|Hq]]; [exact Hq|destruct (prec_asym _ _ X X)|].
        exfalso. apply in_split in Hq. destruct Hq as (u & w & ->). apply (prec_asym q p X). apply (DESC (R0 ++ a) p u q (w ++ R2)).
        rewrite EL, E. repeat (rewrite <- app_assoc; cbn [app]). reflexivity.
Qed.
End Order.
