(* Lemmas on fits of sums of templates, part 3: the fit of one combination. *)
From Coq Require Import QArith Lqa ZifyBool ZifyNat.
From Verif Require Import Base VecProofs VecProofs2 AsciiProofs6 ConvSpec ConvProofs HdistProofs QstackProofs2 QstackProofs5 IndexModel IndexSpec ImageModel
  TfitModel TfitSpec TfitProofs MfitModel MfitSpec MfitProofs MfitProofs2.
Local Open Scope nat_scope.

Lemma F2_len {A B} (P : A -> B -> Prop) l k : Forall2 P l k -> length l = length k.
Proof. induction 1; cbn; congruence. Qed.
Lemma totalq_nth l : (totalq l == qsum (fun i => nth i l 0%Q) (length l))%Q.
Proof. induction l as [|x l IH]; [reflexivity|]. rewrite totalq_cons, IH. cbn [length]. rewrite qsum_front. reflexivity. Qed.
Lemma nth_zip (f : Q -> Q -> Q) a b i : length a = length b -> i < length a ->
  nth i (map (fun p => f (fst p) (snd p)) (combine a b)) 0%Q = f (nth i a 0%Q) (nth i b 0%Q).
Proof.
  intros L Hi. apply nth_error_nth. rewrite nth_error_map, nth_error_combine2.
  rewrite (nth_error_nth' a 0%Q) by lia. rewrite (nth_error_nth' b 0%Q) by lia. reflexivity.
Qed.
Lemma dotq_ok a b m : length a = m -> length b = m ->
  exists s, dotq a b = Ok s /\ (s == qsum (fun k => nth k a 0 * nth k b 0) m)%Q.
Proof.
  intros La Lb. unfold dotq. rewrite zipq_ok by lia. cbn [obind]. eexists. split; [reflexivity|].
  rewrite totalq_nth, zipq_len, La by lia. apply qsum_ext. intros k Hk. rewrite nth_zip by lia. reflexivity.
Qed.

(* element of row l *)
Definition ent (rows : list (list Q)) (l k : nat) : Q := nth k (nth l rows []) 0%Q.

Section One.
Variables (rows : list (list Q)) (m : nat).
Hypothesis Hrows : forall r, In r rows -> length r = m.
Let n := length rows.
Let row_len l : l < n -> length (nth l rows []) = m.
Proof. intros H. apply Hrows, nth_In, H. Qed.

Lemma gram_ok : exists d, gram rows = Ok (Img n n d) /\ length d = n * n /\
  forall i j, i < n -> j < n -> (low n d i j == qsum (fun k => ent rows i k * ent rows j k) m)%Q.
Proof.
  unfold gram. cbv zeta. fold n.
  match goal with |- context [omapl ?f (list_prod _ _)] => destruct (omapl_ex _ _ f (list_prod (seq 0 n) (seq 0 n))) as (d & -> & F) end.
  { intros (i & j) I. apply in_prod_iff in I as (I & J). apply in_seq in I, J. destruct (j <=? i); [|eauto].
    destruct (oget_ex _ rows j) as (a & -> & Ea); [lia|]. destruct (oget_ex _ rows i) as (b & -> & Eb); [lia|]. cbn [obind].
    destruct (dotq_ok a b m) as (s & -> & _); [apply Hrows; eapply nth_error_In; exact Ea|apply Hrows; eapply nth_error_In; exact Eb|eauto]. }
  cbn [obind]. exists d. split; [reflexivity|]. pose proof (F2_len _ _ _ F) as Ld. rewrite prod_length, seq_length in Ld.
  split; [lia|]. assert (G : forall i j, i < n -> j <= i -> (nth (i * n + j) d 0 == qsum (fun k => ent rows i k * ent rows j k) m)%Q).
  { intros i j Hi Hj. assert (N : nth_error (list_prod (seq 0 n) (seq 0 n)) (i * n + j) = Some (i, j)).
    { replace (i * n + j) with (i * length (seq 0 n) + j) by (rewrite seq_length; lia). apply nth_error_prod; apply seq_nth_ok; lia. }
    destruct (Forall2_at _ _ _ F _ _ N) as (s & Es & E). cbv beta iota in E. replace (j <=? i) with true in E by lia.
    destruct (oget_ex _ rows j) as (a & Ej & Ea); [lia|]. destruct (oget_ex _ rows i) as (b & Ei & Eb); [lia|]. rewrite Ej, Ei in E. cbn [obind] in E.
    destruct (dotq_ok a b m) as (s' & E' & Q); [apply Hrows; eapply nth_error_In; exact Ea|apply Hrows; eapply nth_error_In; exact Eb|].
    rewrite E' in E. injection E as ->. rewrite (nth_error_nth _ _ _ Es), Q. apply qsum_ext. intros k _. unfold ent.
    rewrite (nth_error_nth _ _ _ Ea), (nth_error_nth _ _ _ Eb). ring. }
  intros i j Hi Hj. unfold low. destruct (Nat.le_ge_cases j i).
  - rewrite Nat.max_l, Nat.min_r by lia. apply G; lia.
  - rewrite Nat.max_r, Nat.min_l by lia. rewrite G by lia. apply qsum_ext. intros; ring.
Qed.

Lemma sym_get_ok md i j : length md = n * n -> i < n -> j < n -> sym_get (Img n n md) i j = Ok (low n md i j).
Proof.
  intros L Hi Hj. unfold sym_get, pget, low. cbn [nc pix]. destruct (Nat.ltb_spec i j).
  - rewrite Nat.max_r, Nat.min_l by lia. apply oget_Ok. apply nth_error_nth'. nia.
  - rewrite Nat.max_l, Nat.min_r by lia. apply oget_Ok. apply nth_error_nth'. nia.
Qed.

Lemma model_ok : forall rs amp acc, length rs = length amp -> (forall r, In r rs -> length r = m) -> length acc = m ->
  exists md, ofold (fun mo (p : list Q * Q) => zipq Qplus mo (map (Qmult (snd p)) (fst p))) (combine rs amp) acc = Ok md /\ length md = m /\
    forall k, k < m -> (nth k md 0 == nth k acc 0 + qsum (fun l => nth l amp 0 * ent rs l k) (length rs))%Q.
Proof.
  induction rs as [|r rs IH]; intros [|a amp] acc L Hr La; try discriminate; cbn [combine ofold].
  - exists acc. split; [reflexivity|]. split; [exact La|]. intros k _. cbn [length qsum]. ring.
  - cbn [fst snd]. assert (Lr := Hr r (or_introl eq_refl)). rewrite zipq_ok by (rewrite map_length; lia). cbn [obind].
    destruct (IH amp (map (fun p => (fst p + snd p)%Q) (combine acc (map (Qmult a) r)))) as (md & -> & Lm & H).
    + now injection L.
    + intros; apply Hr; right; assumption.
    + rewrite map_length, combine_length, map_length. lia.
    + exists md. split; [reflexivity|]. split; [exact Lm|]. intros k Hk. rewrite H by exact Hk.
      rewrite (nth_zip Qplus) by (rewrite ?map_length; lia). cbn [length]. rewrite qsum_front. unfold ent. cbn [nth].
      rewrite (nth_indep (map (Qmult a) r) 0%Q (Qmult a 0)) by (rewrite map_length; lia). rewrite map_nth. ring.
Qed.

Variables (y md : list Q).
Hypothesis Ly : length y = m.
Hypothesis Lm : length md = n * n.

Lemma fit_rows_ok : exists c a, fit_rows (Img n n md) rows y = Ok (c, a) /\ length a = n /\
  (forall i, i < n -> (nth i a 0 == qsum (fun k => low n md i k * qsum (fun b => nth b y 0 * ent rows k b) m) n)%Q) /\
  (c == chi n m (ent rows) (fun k => nth k y 0%Q) (fun l => nth l a 0%Q))%Q.
Proof.
  unfold fit_rows. cbv zeta. fold n.
  destruct (omapl_ex _ _ (dotq y) rows) as (beta & -> & Fb).
  { intros r I. destruct (dotq_ok y r m) as (s & -> & _); [assumption|apply Hrows, I|eauto]. }
  cbn [obind]. pose proof (F2_len _ _ _ Fb) as Lb. fold n in Lb.
  assert (Bk : forall k, k < n -> (nth k beta 0 == qsum (fun b => nth b y 0 * ent rows k b) m)%Q).
  { intros k Hk. destruct (Forall2_at _ _ _ Fb k _ (nth_error_nth' rows [] Hk)) as (s & Es & E).
    destruct (dotq_ok y (nth k rows []) m) as (s' & E' & Q); [assumption|apply row_len, Hk|]. rewrite E' in E. injection E as ->.
    rewrite (nth_error_nth _ _ _ Es). exact Q. }
  match goal with |- context [omapl ?f (seq 0 n)] => destruct (omapl_ex _ _ f (seq 0 n)) as (amp & E & Fa) end.
  { intros i I. apply in_seq in I.
    match goal with |- context [omapl ?f (seq 0 n)] => destruct (omapl_ex _ _ f (seq 0 n)) as (p & -> & _) end; [|cbn [obind]; eauto].
    intros k K. apply in_seq in K. rewrite sym_get_ok by (assumption || lia). cbn [obind]. destruct (oget_ex _ beta k) as (x & -> & _); [lia|]. cbn [obind]. eauto. }
  rewrite E. cbn [obind]. clear E. pose proof (F2_len _ _ _ Fa) as Lamp. rewrite seq_length in Lamp.
  assert (Ai : forall i, i < n -> (nth i amp 0 == qsum (fun k => low n md i k * nth k beta 0) n)%Q).
  { intros i Hi. destruct (Forall2_at _ _ _ Fa i _ (seq_nth_ok n i Hi)) as (s & Es & E). cbv beta in E.
    apply obind_Ok in E as (p & Ep & [= <-]). rewrite (nth_error_nth _ _ _ Es), totalq_nth.
    pose proof (omapl_Ok_inv _ _ _ _ _ Ep) as Fp. pose proof (F2_len _ _ _ Fp) as Lp. rewrite seq_length in Lp. rewrite <- Lp.
    apply qsum_ext. intros k Hk. destruct (Forall2_at _ _ _ Fp k _ (seq_nth_ok n k Hk)) as (x & Ex & E). cbv beta in E.
    rewrite sym_get_ok in E by assumption. cbn [obind] in E. apply obind_Ok in E as (bk & Eb & [= <-]). apply oget_Ok in Eb.
    rewrite (nth_error_nth _ _ _ Ex), (nth_error_nth _ _ _ Eb). reflexivity. }
  destruct (model_ok rows amp (repeat 0%Q (length y))) as (mo & -> & Lmo & Hmo); [lia|exact Hrows|rewrite repeat_length; exact Ly|].
  cbn [obind]. rewrite zipq_ok by lia. cbn [obind]. eexists. exists amp. split; [reflexivity|]. split; [lia|]. split.
  - intros i Hi. rewrite Ai by exact Hi. apply qsum_ext. intros k Hk. rewrite Bk by exact Hk. reflexivity.
  - rewrite totalq_nth, map_length, zipq_len by lia. rewrite Ly. unfold chi. apply qsum_ext. intros k Hk.
    change 0%Q with (sqrq 0) at 1. rewrite map_nth. rewrite (nth_zip Qminus) by lia. unfold sqrq. rewrite Hmo by exact Hk.
    rewrite nth_repeat. fold n. ring.
Qed.
End One.
