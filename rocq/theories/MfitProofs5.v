(* Lemmas on fits of sums of templates, part 5: all combinations. *)
From Coq Require Import QArith Lqa ZifyBool ZifyNat.
From Verif Require Import Base VecProofs VecProofs2 AsciiProofs6 ConvSpec ConvProofs HdistProofs QstackProofs2 QstackProofs5 IndexModel IndexSpec IndexProofs ImageModel
  TfitModel TfitSpec TfitProofs MfitModel MfitSpec MfitProofs MfitProofs2 MfitProofs3 MfitProofs4.
Local Open Scope nat_scope.

Definition scale (e t : list Q) : list Q := map (fun p => (fst p / snd p)%Q) (combine t e).
Definition tpl (libs : list (list (list Q))) (ids : list nat) (l : nat) : list Q := nth (nth l ids 0) (nth l libs []) [].

Lemma conv_ok libs e : (forall lib t, In lib libs -> In t lib -> length t = length e) ->
  omapl (omapl (fun t => zipq Qdiv t e)) libs = Ok (map (map (scale e)) libs).
Proof.
  intros H. induction libs as [|lib libs IH]; [reflexivity|]. cbn [omapl map].
  assert (E : omapl (fun t => zipq Qdiv t e) lib = Ok (map (scale e) lib)).
  { assert (H' := fun t => H lib t (or_introl eq_refl)). clear IH H. induction lib as [|t lib IH]; [reflexivity|]. cbn [omapl map].
    rewrite zipq_ok by (apply H'; left; reflexivity). cbn [obind]. rewrite IH by (intros; apply H'; right; assumption). reflexivity. }
  rewrite E. cbn [obind]. rewrite IH by (intros; eapply H; [right; eassumption|assumption]). reflexivity.
Qed.

Lemma select_ok (f : list Q -> list Q) : forall libs ids, choice libs ids ->
  exists rows, select (map (map f) libs) ids = Ok rows /\ length rows = length libs /\
    forall l, l < length libs -> In (tpl libs ids l) (nth l libs []) /\ nth l rows [] = f (tpl libs ids l).
Proof.
  unfold choice, select, in_range. induction libs as [|lib libs IH]; intros ids F; inversion F as [|d0 i ds is Hi F']; subst; cbn [map combine omapl].
  - exists []. split; [reflexivity|]. split; [reflexivity|]. cbn. intros; lia.
  - cbn [fst snd]. rewrite map_length. replace (i <? length lib) with true by lia. cbn [check obind].
    rewrite (proj2 (oget_Ok _ _ _ _) (map_nth_error f _ _ (nth_error_nth' lib [] Hi))). cbn [obind].
    destruct (IH is F') as (rows & -> & L & H). cbn [obind]. eexists. split; [reflexivity|]. split; [cbn [length]; congruence|].
    intros [|l] Hl; unfold tpl; cbn [nth]; [split; [apply nth_In; exact Hi|reflexivity]|]. apply H. cbn [length] in Hl. lia.
Qed.

Lemma scale_len e t : length t = length e -> length (scale e t) = length e.
Proof. intros H. unfold scale. rewrite map_length, combine_length. lia. Qed.
Lemma scale_nth e t k : length t = length e -> k < length e -> nth k (scale e t) 0%Q = (nth k t 0 / nth k e 0)%Q.
Proof. intros L Hk. unfold scale. apply (nth_zip Qdiv); lia. Qed.

Section All.
Variables (libs : list (list (list Q))) (y e : list Q).
Hypothesis Hin : mix_input libs y e.
Let n := length libs.
Let m := length e.
Let He : forall k, k < m -> ~ (nth k e 0 == 0)%Q.
Proof. intros k Hk. apply Hin, nth_In, Hk. Qed.

(* the rows of a choice *)
Definition rows_of (ids : list nat) (rows : list (list Q)) : Prop :=
  length rows = n /\ (forall r, In r rows -> length r = m) /\
  forall l k, l < n -> k < m -> (ent rows l k == nth k (tpl libs ids l) 0 / nth k e 0)%Q.
Lemma rows_ok ids : choice libs ids -> exists rows, select (map (map (scale e)) libs) ids = Ok rows /\ rows_of ids rows /\
  forall l, l < n -> nth l rows [] = scale e (tpl libs ids l).
Proof.
  intros Hc. destruct (select_ok (scale e) libs ids Hc) as (rows & E & L & H). exists rows. split; [exact E|].
  destruct Hin as (_ & _ & Lt & _).
  assert (Lr : forall l, l < n -> length (tpl libs ids l) = m).
  { intros l Hl. destruct (H l Hl) as (I & _). apply (Lt (nth l libs [])); [apply nth_In; exact Hl|exact I]. }
  split; [|intros l Hl; apply H; exact Hl].
  split; [exact L|]. split.
  - intros r I. apply In_nth_error in I as (l & E'). assert (l < n) by (unfold n; rewrite <- L; apply nth_error_Some; congruence).
    destruct (H l H0) as (_ & Q). rewrite (nth_error_nth _ _ _ E') in Q. subst r. apply scale_len, Lr. assumption.
  - intros l k Hl Hk. unfold ent. destruct (H l Hl) as (_ & ->). rewrite scale_nth by (try apply Lr; assumption). reflexivity.
Qed.

(* w are the fluxes z divided by the errors *)
Definition sc (w z : list Q) : Prop := length w = m /\ length z = m /\ forall k, k < m -> (nth k w 0 == nth k z 0 / nth k e 0)%Q.
Lemma sc_scale z : length z = m -> sc (scale e z) z.
Proof. intros L. split; [apply scale_len, L|]. split; [exact L|]. intros k Hk. rewrite scale_nth by assumption. reflexivity. Qed.
(* chi2 in terms of the rows *)
Lemma chi_mix ids rows w z b : rows_of ids rows -> sc w z ->
  (chi n m (ent rows) (fun k => nth k w 0%Q) (fun l => nth l b 0%Q) == mixture_chi2 libs z e ids b)%Q.
Proof.
  intros (_ & _ & H) (_ & Lz & Hw). unfold chi, mixture_chi2. rewrite Lz. apply qsum_ext. intros k Hk.
  assert (A : (nth k w 0 - qsum (fun l => nth l b 0 * ent rows l k) n == (nth k z 0 - mixture libs ids b k) / nth k e 0)%Q).
  { rewrite Hw by assumption. unfold mixture. fold n.
    rewrite (qsum_ext (fun l => nth l b 0 * ent rows l k)%Q (fun l => / nth k e 0 * (nth l b 0 * nth k (nth (nth l ids 0%nat) (nth l libs []) []) 0))%Q).
    - rewrite qsum_mul. field. apply He, Hk.
    - intros l Hl. rewrite H by assumption. unfold tpl. field. apply He, Hk. }
  rewrite A. reflexivity.
Qed.
Lemma mix_zero ids rows b k : rows_of ids rows -> k < m ->
  ((qsum (fun l => nth l b 0 * ent rows l k) n == 0) <-> (mixture libs ids b k == 0))%Q.
Proof.
  intros (_ & _ & H) Hk. assert (A : (mixture libs ids b k == nth k e 0 * qsum (fun l => nth l b 0 * ent rows l k) n)%Q).
  { rewrite <- qsum_mul. unfold mixture. fold n. apply qsum_ext. intros l Hl. rewrite H by assumption. unfold tpl. field. apply He, Hk. }
  rewrite A. split; intros E; [rewrite E; ring|]. apply Qmult_integral in E as [E|E]; [destruct (He k Hk E)|exact E].
Qed.

Variables (invsym : img Q -> outcome (option (img Q))) (allowed : list nat -> bool).
Hypothesis Hinv : inverts invsym.
Let conv := map (map (scale e)) libs.
Let att := try_rows invsym allowed conv.

(* a fit that is the best one of the choice *)
Definition good_fit (ids : list nat) (fit : list Q -> outcome (Q * list Q)) : Prop :=
  forall w z, sc w z -> exists c a, fit w = Ok (c, a) /\ length a = n /\
    (c == mixture_chi2 libs z e ids a)%Q /\ forall b, (c <= mixture_chi2 libs z e ids b)%Q.
Lemma attempt_ok ids : choice libs ids -> allowed ids = true ->
  (~ dependent libs m ids /\ exists fit, att ids = Ok (Try fit) /\ good_fit ids fit) \/ (dependent libs m ids /\ att ids = Ok Stuck).
Proof.
  intros Hc Ha. destruct (rows_ok ids Hc) as (rows & E & R & _). unfold att, try_rows, conv. rewrite Ha, E. cbn [obind].
  destruct R as (L & Lr & Re). assert (R : rows_of ids rows) by (split; [|split]; assumption).
  destruct (gram_ok rows m Lr) as (d & -> & Ld & Hd). cbn [obind]. rewrite L in *.
  destruct (Hinv n d Ld) as [(md & -> & Lm & Hm)|(-> & b & (i & Hi & Hb) & K)]; cbn [obind].
  - left. assert (Sl : forall (a : list Q) i j, i < n -> j < n -> (low n a i j == low n a j i)%Q) by (intros a i j _ _; rewrite low_sym; reflexivity). split.
    + intros (b & (l & Hl & Hb) & Z). apply Hb. revert Hl. apply (inverse_kernel n (low n d) (low n md) (fun l => nth l b 0%Q)); [apply Sl|apply Sl|exact Hm|].
      intros i Hi. rewrite (qsum_ext _ (fun j => qsum (fun k => ent rows i k * ent rows j k) m * nth j b 0)%Q) by (intros j Hj; rewrite Hd by assumption; reflexivity).
      apply (mix_kernel n m (ent rows) (fun l => nth l b 0%Q)); [|exact Hi]. intros k Hk. apply (mix_zero ids rows b k R Hk). apply Z, Hk.
    + eexists. split; [reflexivity|]. intros w z Hw.
      destruct (fit_rows_ok rows m Lr w md) as (c & a & Ef & La & Hamp & Hchi); [apply Hw|rewrite L; exact Lm|].
      rewrite L in *. exists c, a. split; [exact Ef|]. split; [exact La|].
      rewrite (chi_mix ids rows w z a R Hw) in Hchi. split; [exact Hchi|]. intros b. rewrite Hchi, <- (chi_mix ids rows w z a R Hw), <- (chi_mix ids rows w z b R Hw).
      apply (least n m (ent rows) (fun k => nth k w 0%Q) (low n d) (low n md) Hd Hm (fun l => nth l a 0%Q) Hamp).
  - right. split; [|reflexivity]. exists (map b (seq 0 n)).
    assert (Nb : forall l, l < n -> nth l (map b (seq 0 n)) 0%Q = b l).
    { intros l Hl. apply nth_error_nth. rewrite nth_error_map, seq_nth_ok by exact Hl. reflexivity. }
    split; [exists i; split; [exact Hi|rewrite Nb by exact Hi; exact Hb]|].
    intros k Hk. apply (mix_zero ids rows _ k R Hk). rewrite (qsum_ext _ (fun l => b l * ent rows l k)%Q) by (intros l Hl; rewrite Nb by exact Hl; reflexivity).
    apply (kernel_mix n m (ent rows) b); [|exact Hk]. intros j Hj. rewrite <- (K j Hj). apply qsum_ext. intros l Hl. rewrite Hd by assumption. reflexivity.
Qed.

Let nsed := map (@length (list Q)) libs.
Lemma best_mix w z K b : sc w z ->
  (forall ids, choice libs ids -> allowed ids = true -> row_major nsed ids < K -> ~ dependent libs m ids) ->
  best_upto att nsed w K b ->
  match b_chi2 b with
  | None => forall ids, choice libs ids -> row_major nsed ids < K -> allowed ids = false
  | Some c => mix_best libs z e allowed K (b_ids b) (b_amp b) c
  end.
Proof.
  intros Hw Hind. assert (G : forall ids, choice libs ids -> allowed ids = true -> row_major nsed ids < K -> exists fit, att ids = Ok (Try fit) /\ good_fit ids fit).
  { intros ids Hc Ha Hk. destruct (attempt_ok ids Hc Ha) as [(_ & H)|(D & _)]; [exact H|]. destruct (Hind ids Hc Ha Hk D). }
  unfold best_upto. destruct (b_chi2 b) as [c|].
  - intros (fit & Hr & Hk & Ea & Ef & H). assert (Ha : allowed (b_ids b) = true).
    { unfold att, try_rows in Ea. destruct (allowed (b_ids b)); [reflexivity|discriminate]. }
    unfold mix_best. cbv zeta. fold nsed. split; [exact Hr|]. split; [exact Ha|]. split; [exact Hk|].
    destruct (G (b_ids b) Hr Ha Hk) as (fit' & Ea' & Gf). rewrite Ea in Ea'. injection Ea' as <-.
    destruct (Gf w z Hw) as (c' & a' & Ef' & La & Hc' & _). rewrite Ef in Ef'. injection Ef' as <- <-. split; [exact La|]. split; [exact Hc'|].
    intros ids b' Hr' Ha' Hk'. destruct (G ids Hr' Ha' Hk') as (fit2 & E2 & Gf2). destruct (Gf2 w z Hw) as (c2 & a2 & Ef2 & _ & _ & Hb2).
    destruct (H ids fit2 c2 a2 Hr' Hk' E2 Ef2) as (P1 & P2). specialize (Hb2 b'). split; [lra|]. intros Hlt. specialize (P2 Hlt). lra.
  - intros H ids Hc Hk. destruct (allowed ids) eqn:Ha; [|reflexivity]. destruct (G ids Hc Ha Hk) as (fit & E & _). destruct (H ids fit Hc Hk E).
Qed.

Variable K : nat.
Lemma rounds_mix (ws zs : list (list Q)) : Forall2 sc ws zs -> independent_upto libs m allowed K ->
  exists s, rounds att nsed (scale e y) ws = Ok s /\ best_upto att nsed (scale e y) K (m_best s) /\
    Forall2 (fun w b => best_upto att nsed w K b) ws (m_sims s).
Proof.
  intros Hz (Hind & Hend). fold nsed in Hind, Hend. destruct Hin as (Hne & Ly & _). fold m in Ly.
  apply (rounds_ok att nsed ltac:(unfold nsed; destruct libs; [congruence|discriminate]) (scale e y) ws K).
  - destruct Hend as [->|(L & _)]; lia.
  - intros ids Hr Hk. destruct (allowed ids) eqn:Ha.
    + right. destruct (attempt_ok ids Hr Ha) as [(_ & fit & E & G)|(D & _)]; [|destruct (Hind ids Hr Ha Hk D)].
      exists fit. split; [exact E|]. intros w [<-|I].
      * destruct (G _ _ (sc_scale y Ly)) as (c & a & Ef & _). eauto.
      * assert (exists z, sc w z) as (z & Hw). { clear -Hz I. induction Hz; [destruct I|]. destruct I as [<-|I]; eauto. }
        destruct (G w z Hw) as (c & a & Ef & _). eauto.
    + left. unfold att, try_rows. rewrite Ha. reflexivity.
  - destruct Hend as [->|(L & ids & Hc & Hk & Ha & D)]; [left; reflexivity|]. right. exists ids. split; [exact Hc|]. split; [exact Hk|].
    destruct (attempt_ok ids Hc Ha) as [(N & _)|(_ & E)]; [destruct (N D)|exact E].
Qed.
End All.
