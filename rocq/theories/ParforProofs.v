From Coq Require Import Permutation.
From Verif Require Import Base IndexModel IndexSpec IndexProofs VecProofs ParforModel ParforSpec.
Local Open Scope Z_scope.

Definition zrange (b e : Z) : list Z := map (fun k => b + Z.of_nat k) (seq 0 (Z.to_nat (e - b))).
Lemma enum_zrange : forall b e l, b <= e -> enumerates_up b (e - b) l -> l = zrange b e.
Proof.
  intros b e l L (E & H). unfold zrange. apply list_eq_nth_error. intros k. rewrite nth_error_map.
  destruct (le_lt_dec (length l) k) as [G|G].
  - rewrite (proj2 (nth_error_None l k)) by lia. rewrite (proj2 (nth_error_None _ k)); [reflexivity|]. rewrite seq_length. lia.
  - rewrite H by auto. rewrite nth_error_seq. destruct (Nat.ltb_spec k (Z.to_nat (e - b))); [reflexivity|lia].
Qed.
Lemma zrange_length : forall b e, length (zrange b e) = Z.to_nat (e - b).
Proof. intros. unfold zrange. now rewrite map_length, seq_length. Qed.
Lemma zrange_app : forall a b c, a <= b <= c -> zrange a c = zrange a b ++ zrange b c.
Proof.
  intros a b c L. unfold zrange. replace (Z.to_nat (c - a)) with (Z.to_nat (b - a) + Z.to_nat (c - b))%nat by lia.
  rewrite seq_app, map_app. f_equal. rewrite Nat.add_0_l. rewrite <- (Nat.add_0_r (Z.to_nat (b - a))) at 1.
  generalize (Z.to_nat (c - b)) 0%nat. intros m. induction m; intros k; cbn; [reflexivity|]. f_equal; [lia|].
  replace (S (Z.to_nat (b - a) + k)) with (Z.to_nat (b - a) + S k)%nat by lia. apply IHm.
Qed.
Lemma zrange_in : forall b e i, In i (zrange b e) <-> b <= i < e.
Proof.
  intros. unfold zrange. rewrite in_map_iff. split.
  - intros (k & <- & H). apply in_seq in H. lia.
  - intros H. exists (Z.to_nat (i - b)). split; [lia|]. apply in_seq. lia.
Qed.
Lemma zrange_nodup : forall b e, NoDup (zrange b e).
Proof. intros. unfold zrange. apply FinFun.Injective_map_NoDup; [|apply seq_NoDup]. intros x y H. lia. Qed.
Lemma zrange_nil : forall b, zrange b b = [].
Proof. intros. unfold zrange. now rewrite Z.sub_diag. Qed.

Definition todo (w : wpc) : list Z := match w with WLoop l => l | _ => [] end.
Definition todos (l : list wpc) : list Z := flat_map todo l.
(* the chunks cover [f, n) *)
Record inv (f : Z) (s : state) : Prop := {
  i_perm : Permutation (map snd (log s) ++ todos (ws s) ++ zrange (i0 s) (n s)) (zrange f (n s));
  i_i0 : 0 <= f <= i0 s /\ i0 s <= n s < two63;
  i_di : 0 < di s <= n s + 1;
  i_i1 : i0 s < n s -> i0 s < i1 s <= n s;
  i_done : (exists w, nth_error (ws s) w = Some WDone) -> i0 s = n s }.
Definition wweight (w : wpc) : nat := match w with WDone => 0 | WAsk => 1 | WLoop l => 2 + length l end.
Definition meas (s : state) : nat := 3 * Z.to_nat (n s - i0 s) + list_sum (map wweight (ws s)).

Lemma todos_upd : forall l w x y, nth_error l w = Some x -> Permutation (todos (upd l w y) ++ todo x) (todos l ++ todo y).
Proof.
  induction l as [|h l IH]; intros [|w] x y H; try discriminate; cbn in *.
  - injection H as ->. rewrite <- !app_assoc. etransitivity; [apply Permutation_app_head, Permutation_app_comm|].
    etransitivity; [apply Permutation_app_swap_app|]. apply Permutation_app_head, Permutation_app_comm.
  - rewrite <- !app_assoc. apply Permutation_app_head. apply IH. auto.
Qed.
Lemma sum_upd : forall l w x y, nth_error l w = Some x -> (list_sum (map wweight (upd l w y)) + wweight x = list_sum (map wweight l) + wweight y)%nat.
Proof.
  induction l as [|h l IH]; intros [|w] x y H; try discriminate; cbn [upd map list_sum fold_right] in *.
  - injection H as ->. unfold list_sum. lia.
  - specialize (IH w x y H). unfold list_sum in *. cbn. lia.
Qed.

Lemma wstep_inv : forall f w s, inv f s -> exists r, wstep w s = Ok r /\
  forall s', r = Some s' -> inv f s' /\ (meas s' < meas s)%nat /\ length (ws s') = length (ws s) /\ n s' = n s /\ di s' = di s.
Proof.
  intros f w [n0 d a b l lg] I. pose proof I as [P (F & N) D B DN]. unfold wstep. cbn [n di i0 i1 ws log] in *.
  destruct (nth_error l w) as [x|] eqn:X; [|exists None; split; [reflexivity|discriminate]].
  assert (WL : (w < length l)%nat) by (apply nth_error_Some; congruence).
  assert (DONE : forall y, y <> WDone -> (exists v, nth_error (upd l w y) v = Some WDone) -> a = n0).
  { intros y NY (v & Hv). apply DN. destruct (Nat.eq_dec w v) as [->|NE].
    - rewrite nth_error_upd_same in Hv by auto. congruence.
    - rewrite nth_error_upd_other in Hv by auto. eauto. }
  destruct x as [|[|i t]|]; [| | |exists None; split; [reflexivity|discriminate]].
  - unfold query_chunk. cbn [n di i0 i1 ws log]. destruct (Z.eqb_spec a n0) as [->|NA].
    + eexists. split; [reflexivity|]. intros s' E. injection E as <-. split; [|split; [|cbn [ws n di]; rewrite upd_length; auto]].
      * split; cbn [n di i0 i1 ws log]; auto. pose proof (todos_upd l w WAsk WDone X) as T. cbn in T. rewrite !app_nil_r in T.
        etransitivity; [|exact P]. apply Permutation_app_head, Permutation_app_tail, T.
      * unfold meas. cbn [n i0 ws]. pose proof (sum_upd l w WAsk WDone X) as S. cbn in S. lia.
    + assert (AN : a < n0) by lia. specialize (B AN).
      destruct (for_range_up a b) as (r & HR & ER); [lia|lia|]. rewrite HR. cbn [obind]. apply enum_zrange in ER; [|lia]. subst r.
      eexists. split; [reflexivity|]. intros s' E. injection E as <-.
      assert (WR : wrap64 (b + d) = b + d). { apply wrap64_small. unfold two63, two64 in *. lia. } rewrite WR.
      split; [|split; [|cbn [ws n di]; rewrite upd_length; auto]].
      * split; cbn [n di i0 i1 ws log]; auto.
        -- pose proof (todos_upd l w WAsk (WLoop (zrange a b)) X) as T. cbn in T. rewrite !app_nil_r in T. etransitivity; [|exact P].
           apply Permutation_app_head. rewrite (zrange_app a b n0) by lia. rewrite app_assoc. apply Permutation_app_tail, T.
        -- lia.
        -- intros L. destruct (Z.ltb_spec n0 (b + d)); lia.
        -- intros DW. assert (a = n0); [|lia]. eapply DONE; [|exact DW]. discriminate.
      * unfold meas. cbn [n i0 ws]. pose proof (sum_upd l w WAsk (WLoop (zrange a b)) X) as S. cbn in S. rewrite zrange_length in S. lia.
  - eexists. split; [reflexivity|]. intros s' E. injection E as <-. split; [|split; [|cbn [ws n di]; rewrite upd_length; auto]].
    + split; cbn [n di i0 i1 ws log]; auto; [|intros DW; eapply DONE; [|exact DW]; discriminate].
      pose proof (todos_upd l w (WLoop []) WAsk X) as T. cbn in T. rewrite !app_nil_r in T.
      etransitivity; [|exact P]. apply Permutation_app_head, Permutation_app_tail, T.
    + unfold meas. cbn [n i0 ws]. pose proof (sum_upd l w (WLoop []) WAsk X) as S. cbn in S. lia.
  - eexists. split; [reflexivity|]. intros s' E. injection E as <-. split; [|split; [|cbn [ws n di]; rewrite upd_length; auto]].
    + split; cbn [n di i0 i1 ws log]; auto; [|intros DW; eapply DONE; [|exact DW]; discriminate].
      pose proof (todos_upd l w (WLoop (i :: t)) (WLoop t) X) as T. cbn [todo] in T.
      etransitivity; [|exact P]. rewrite map_app. cbn [map snd]. rewrite <- app_assoc. apply Permutation_app_head. rewrite app_assoc. apply Permutation_app_tail.
      cbn [app]. assert (T2 : Permutation (t ++ i :: todos (upd l w (WLoop t))) (t ++ todos l)).
      { etransitivity; [|etransitivity; [symmetry; exact (Permutation_sym T)|apply Permutation_app_comm]].
        etransitivity; [apply Permutation_app_comm|]. cbn [app]. etransitivity; [apply Permutation_middle|]. reflexivity. }
      now apply Permutation_app_inv_l in T2.
    + unfold meas. cbn [n i0 ws]. pose proof (sum_upd l w (WLoop (i :: t)) (WLoop t) X) as S. cbn in S. lia.
Qed.
Lemma run_inv : forall sched f s, inv f s -> exists s', run sched s = Ok s' /\ inv f s' /\ length (ws s') = length (ws s) /\ n s' = n s.
Proof.
  unfold run. induction sched as [|w sched IH]; intros f s I; cbn [ofold]; [eauto|].
  unfold step at 1. destruct (wstep_inv f w s I) as ([s1|] & -> & H); cbn [obind].
  - destruct (H s1 eq_refl) as (I1 & _ & L1 & N1 & _). destruct (IH f s1 I1) as (s' & R & I' & L' & N'). exists s'. split; [exact R|]. split; [exact I'|]. split; congruence.
  - auto.
Qed.
Lemma busy_bound : forall sched f s, inv f s -> (busy sched s <= meas s)%nat.
Proof.
  induction sched as [|w sched IH]; intros f s I; cbn [busy]; [lia|]. destruct (wstep_inv f w s I) as ([s1|] & -> & H); [|eauto].
  destruct (H s1 eq_refl) as (I1 & L & _). specialize (IH f s1 I1). lia.
Qed.
Lemma inv_some_once : forall f s, inv f s -> some_once f (n s) (map snd (log s)).
Proof.
  intros f s I. pose proof (i_perm _ _ I) as P. split.
  - assert (ND : NoDup (map snd (log s) ++ todos (ws s) ++ zrange (i0 s) (n s))). { eapply Permutation_NoDup; [symmetry; exact P|apply zrange_nodup]. }
    clear P. induction (map snd (log s)) as [|x l IHl]; [constructor|]. cbn in ND. inversion ND; subst. constructor; auto. intros Hi. apply H1, in_app_iff. now left.
  - intros i Hi. apply zrange_in. eapply Permutation_in; [exact P|]. apply in_app_iff. now left.
Qed.
Lemma inv_joined : forall f s, inv f s -> ws s <> [] -> joined s = true -> each_once f (n s) (map snd (log s)).
Proof.
  intros f s I NE J. pose proof (inv_some_once f s I) as (ND & _). split; auto. intros i.
  assert (T : todos (ws s) = []).
  { unfold joined in J. clear -J. induction (ws s) as [|x l IH]; auto. cbn in *. apply andb_prop in J. destruct J as (J & K). destruct x; try discriminate. cbn. auto. }
  assert (E : i0 s = n s).
  { apply (i_done _ _ I). destruct (ws s) as [|x l] eqn:W; [contradiction|]. exists 0%nat. unfold joined in J. rewrite W in J. cbn in J. destruct x; try discriminate. reflexivity. }
  pose proof (i_perm _ _ I) as P. rewrite T, E, zrange_nil, !app_nil_r in P. rewrite <- zrange_in. split; apply Permutation_in; [exact P|symmetry; exact P].
Qed.
(* the state at the start *)
Lemma setup_inv : forall nw cs f e, 0 <= f -> f <= e -> e < two63 -> 0 <= cs < two64 -> (0 < nw)%nat ->
  let m := e - f in let k := chunks nw cs m in
  f <= m -> (f = m \/ f + (m / k + 1) <= m) -> inv f (setup nw cs f e) /\ n (setup nw cs f e) = m /\ ws (setup nw cs f e) = repeat WAsk nw.
Proof.
  intros nw cs f e F FE E CS NW m k FM H. unfold setup. rewrite (wrap64_small (e - f)) by (unfold two63, two64 in *; lia). fold m. fold k.
  assert (K : 0 < k). { unfold k, chunks. destruct (cs =? 0); lia. }
  assert (MK : 0 <= m / k <= m). { split; [apply Z.div_pos; lia|]. apply Z.div_le_upper_bound; [lia|]. nia. }
  rewrite (wrap64_small (m / k + 1)) by (unfold two63, two64 in *; lia). rewrite (wrap64_small (f + (m / k + 1))) by (unfold two63, two64 in *; lia).
  assert (T : todos (repeat WAsk nw) = []) by (clear; induction nw; auto).
  split; [|split; reflexivity]. split; cbn [n di i0 i1 ws log]; rewrite ?T; auto.
  - unfold two63 in *. lia.
  - lia.
  - lia.
  - intros (w & Hw). apply nth_error_In, repeat_spec in Hw. discriminate.
Qed.
Lemma meas_setup : forall nw s, ws s = repeat WAsk nw -> meas s = (3 * Z.to_nat (n s - i0 s) + nw)%nat.
Proof. intros nw s H. unfold meas. rewrite H. f_equal. clear. induction nw; cbn in *; auto. Qed.
Lemma wstep_stuck : forall w s, wstep w s = Ok None -> (w < length (ws s))%nat -> nth_error (ws s) w = Some WDone.
Proof.
  intros w s H L. unfold wstep in H. destruct (nth_error (ws s) w) as [x|] eqn:X; [|apply nth_error_None in X; lia].
  destruct x as [|[|i t]|]; auto; try discriminate. destruct (query_chunk s) as [(((a & b) & c) & d)|]; [|discriminate]. destruct (for_range a b); discriminate.
Qed.

(* --- a single chunk ------------------------------------------------------------------------ *)
Definition inv1 (e : Z) (s : state) : Prop :=
  n s = e /\ di s = e + 1 /\ exists w, ws s = [w] /\
  ((w = WAsk /\ i0 s = 0 /\ i1 s = e + 1 /\ map snd (log s) = []) \/
   (i0 s = e + 1 /\ i1 s = e /\ ((exists t, w = WLoop t /\ map snd (log s) ++ t = zrange 0 (e + 1)) \/ (w = WAsk /\ map snd (log s) = zrange 0 (e + 1)))) \/
   (i0 s = e /\ ((exists t, w = WLoop t /\ map snd (log s) ++ t = zrange 0 (e + 2)) \/ ((w = WAsk \/ w = WDone) /\ map snd (log s) = zrange 0 (e + 2))))).
Lemma step_inv1 : forall e w s, 0 < e -> e + 1 < two63 -> inv1 e s -> exists s', step s w = Ok s' /\ inv1 e s'.
Proof.
  intros e w [n0 d a b l lg] E0 E1 I. pose proof I as (N & D & x & W & C). cbn [n di ws i0 i1 log] in *. subst n0 d l. unfold step, wstep. cbn [n di ws i0 i1 log].
  assert (STAY : forall s0, s0 = State e (e + 1) a b [x] lg -> exists s', Ok s0 = Ok s' /\ inv1 e s').
  { intros s0 ->. eexists. split; [reflexivity|]. exact I. }
  destruct w as [|w]; cbn [nth_error]; [|destruct w; cbn [nth_error obind]; apply STAY; reflexivity].
  destruct C as [(-> & -> & -> & L)|[(-> & -> & [(t & -> & L)|(-> & L)])|(-> & [(t & -> & L)|(XX & L)])]].
  - unfold query_chunk. cbn [i0 n i1 di]. destruct (Z.eqb_spec 0 e) as [?|N0e]; [lia|]. rewrite wrap64_small by (unfold two63, two64 in *; lia).
    destruct (for_range_up 0 (e + 1)) as (r & HR & ER); [lia|lia|]. rewrite HR. apply enum_zrange in ER; [|lia]. subst r. cbn [obind].
    eexists. split; [reflexivity|]. unfold inv1. cbn [n di ws i0 i1 log upd]. split; [reflexivity|]. split; [reflexivity|]. eexists. split; [reflexivity|]. right. left.
    split; [reflexivity|]. split; [destruct (Z.ltb_spec e (e + 1 + (e + 1))); lia|]. left. eexists. split; [reflexivity|]. rewrite L. reflexivity.
  - destruct t as [|i t]; cbn [obind]; eexists; (split; [reflexivity|]); unfold inv1; cbn [n di ws i0 i1 log upd]; (split; [reflexivity|]); (split; [reflexivity|]); eexists; (split; [reflexivity|]); right; left; (split; [reflexivity|]); (split; [reflexivity|]).
    + right. split; auto. now rewrite app_nil_r in L.
    + left. eexists. split; [reflexivity|]. rewrite map_app, <- app_assoc. exact L.
  - unfold query_chunk. cbn [i0 n i1 di]. destruct (Z.eqb_spec (e + 1) e) as [?|N0e]; [lia|].
    destruct (for_range_down (e + 1) e) as (r & HR & ER); [lia|lia|lia|]. rewrite HR. cbn [obind].
    assert (R1 : r = [e + 1]).
    { destruct ER as (LR & KR). destruct r as [|y [|z r]]; cbn in LR; try lia. specialize (KR 0%nat ltac:(cbn; lia)). cbn in KR. injection KR as ->. f_equal. lia. }
    subst r. eexists. split; [reflexivity|]. unfold inv1. cbn [n di ws i0 i1 log upd]. split; [reflexivity|]. split; [reflexivity|]. eexists. split; [reflexivity|]. right. right.
    split; [reflexivity|]. left. eexists. split; [reflexivity|]. rewrite L. rewrite (zrange_app 0 (e + 1) (e + 2)) by lia. f_equal.
    unfold zrange. replace (Z.to_nat (e + 2 - (e + 1))) with 1%nat by lia. cbn. now rewrite Z.add_0_r.
  - destruct t as [|i t]; cbn [obind]; eexists; (split; [reflexivity|]); unfold inv1; cbn [n di ws i0 i1 log upd]; (split; [reflexivity|]); (split; [reflexivity|]); eexists; (split; [reflexivity|]); right; right; (split; [reflexivity|]).
    + right. split; auto. now rewrite app_nil_r in L.
    + left. eexists. split; [reflexivity|]. rewrite map_app, <- app_assoc. exact L.
  - destruct XX as [->| ->].
    + unfold query_chunk. cbn [i0 n i1 di]. rewrite Z.eqb_refl. cbn [obind]. eexists. split; [reflexivity|]. unfold inv1. cbn [n di ws i0 i1 log upd].
      split; [reflexivity|]. split; [reflexivity|]. eexists. split; [reflexivity|]. right. right. split; [reflexivity|]. right. auto.
    + cbn [obind]. apply STAY. reflexivity.
Qed.
Lemma one_chunk : forall sched cs e, 0 < e -> e + 1 < two63 -> 0 <= cs -> chunks 1 cs e = 1 ->
  exists s, run sched (setup 1 cs 0 e) = Ok s /\ (joined s = true -> each_once 0 (e + 2) (map snd (log s))).
Proof.
  intros sched cs e E0 E1 CS CH. assert (I : inv1 e (setup 1 cs 0 e)).
  { unfold setup. rewrite Z.sub_0_r, (wrap64_small e) by (unfold two63, two64 in *; lia). rewrite CH, Z.div_1_r.
    rewrite Z.add_0_l. rewrite !(wrap64_small (e + 1)) by (unfold two63, two64 in *; lia). split; [reflexivity|]. split; [reflexivity|]. exists WAsk. split; [reflexivity|]. left. auto. }
  assert (R : exists s, run sched (setup 1 cs 0 e) = Ok s /\ inv1 e s).
  { revert I. generalize (setup 1 cs 0 e). unfold run. induction sched as [|w sched IH]; intros s I; cbn [ofold]; [eauto|].
    destruct (step_inv1 e w s E0 E1 I) as (s1 & -> & I1). cbn [obind]. auto. }
  destruct R as (s & R & (N & D & x & W & C)). exists s. split; [exact R|]. unfold joined. rewrite W. cbn. intros J. destruct x; try discriminate.
  destruct C as [(X & _)|[(_ & _ & [(t & X & _)|(X & _)])|(_ & [(t & X & _)|(_ & L)])]]; try discriminate. rewrite L. split; [apply zrange_nodup|]. intros i. apply zrange_in.
Qed.
