(* Lemmas on cross matching, part 4: the results, xmatch_clean_best. *)
From Coq Require Import ZifyBool ZifyNat.
From Verif Require Import Base IndexModel IndexProofs VecModel VecSpec VecProofs VecProofs2 ImageModel ImageProofs MatModel MatProofs XmatchModel XmatchSpec XmatchProofs XmatchProofs2 XmatchProofs3.

Lemma candidates_in dist n self i c : In c (candidates dist n self i) <->
  snd c < n /\ (self && (i =? snd c)) = false /\ dist i (snd c) = Some (fst c).
Proof.
  destruct c as [x j]. unfold candidates. rewrite in_flat_map. cbn [fst snd]. split.
  - intros (j' & Hj & H). apply in_seq in Hj. destruct (self && (i =? j')) eqn:E; [destruct H|].
    destruct (dist i j') eqn:D; [|destruct H]. destruct H as [[= <- <-]|[]]. split; [lia|auto].
  - intros (H1 & H2 & H3). exists j. rewrite in_seq, H2, H3. split; [lia|left; reflexivity].
Qed.
Lemma best_nearest dist self n1 j r : best dist self 0 n1 j r -> is_nearest (candidates (fun j i => dist i j) n1 self j) r.
Proof.
  assert (Hc : forall c, In c (candidates (fun j i => dist i j) n1 self j) <-> cand dist self 0 n1 j c).
  { intros c. rewrite candidates_in. unfold cand. rewrite (Nat.eqb_sym j). split; intros (H1 & H2 & H3); (split; [lia|auto]). }
  destruct r as [c|]; cbn.
  - intros (H1 & H2). split; [apply Hc; exact H1|]. intros c' H'. apply H2, Hc, H'.
  - intros H. destruct (candidates _ n1 self j) as [|c l] eqn:E; [reflexivity|]. exfalso. apply (H c). apply Hc. left; reflexivity.
Qed.

Section B.
Context {T : Type} (conv : Z -> T).
Variables (dist : nat -> nat -> option Z) (n1 n2 nth_ thread a : nat) (self no_mirror linear : bool).
Hypothesis (H1 : 0 < n1) (H2 : 0 < n2) (Hbig : (Z.of_nat n1 <= max_ptrs)%Z).
Hypothesis Ht : split_ok n1 thread a.
Let n := Nat.max nth_ 1.

Lemma brute_any : exists r R, brute dist n n1 n2 self no_mirror thread a = Ok r /\
  complete dist n n1 n2 self no_mirror r R /\ (thread <= 1 -> R = mirf dist self 0 n1).
Proof.
  assert (Hn : 1 <= n) by (unfold n; lia). destruct Ht as [Ht'|(A & B & C)].
  - destruct (brute_one dist n n1 n2 self no_mirror Hn thread a Ht') as (r & E & H). exists r, (mirf dist self 0 n1). auto.
  - destruct (brute_many dist n n1 n2 self no_mirror Hn Hbig thread a A B C) as (r & R & E & H). exists r, R.
    split; [exact E|]. split; [exact H|]. lia.
Qed.

Lemma qx_ok : exists o R, qxmatch_brute conv dist n1 n2 nth_ thread a self no_mirror linear = Ok o /\
  rep n n1 (o_id o) (fun k i => ei (nth k (colf dist n self i n2) None)) /\
  rep n n1 (o_d o) (fun k i => proxy_to_true linear conv (ed (nth k (colf dist n self i n2) None))) /\
  (no_mirror = false -> repv n2 (o_rid o) (fun j => ei (R j)) /\ repv n2 (o_rd o) (fun j => proxy_to_true linear conv (ed (R j)))) /\
  (no_mirror = true -> o_rid o = [] /\ o_rd o = []) /\
  (forall j, best dist self 0 n1 j (R j)) /\ (thread <= 1 -> R = mirf dist self 0 n1).
Proof.
  unfold qxmatch_brute. fold n. destruct (Nat.eqb_spec n1 0); [lia|]. destruct (Nat.eqb_spec n2 0); [lia|]. cbn [orb].
  destruct brute_any as (r & R & -> & (((HC1 & HC2 & HC3) & HM) & HB) & HR). cbn [obind].
  eexists. exists R. split; [reflexivity|]. cbn [o_id o_d o_rid o_rd].
  assert (Map : forall m d M, rep n m d M -> rep n m (map (proxy_to_true linear conv) d) (fun k i => proxy_to_true linear conv (M k i))).
  { intros m d M (L & H). split; [rewrite map_length; exact L|]. intros i j Hi Hj. rewrite nth_error_map, H by assumption. reflexivity. }
  split; [exact HC3|]. split; [apply (Map _ _ _ HC2)|]. unfold mirs in HM.
  split; [|split; [|auto]].
  - intros E. rewrite E in HM. destruct HM as (M1 & M2). split; [exact M2|].
    destruct M1 as (L & H). split; [rewrite map_length; exact L|]. intros j Hj. rewrite nth_error_map, H by assumption. reflexivity.
  - intros E. rewrite E in HM. destruct HM as (-> & ->). auto.
Qed.
End B.

(* ---- xmatch_clean_best ---- *)
Definition mutualb (id rid : list (option nat)) (i : nat) : bool :=
  match nth_error id i with
  | Some (Some k) => match nth_error rid k with Some (Some b) => b =? i | _ => false end
  | _ => false
  end.
Definition match_of (id : list (option nat)) (i : nat) : nat :=
  match nth_error id i with Some (Some k) => k | _ => 0 end.
Lemma mutualb_spec id rid i : mutualb id rid i = true -> mutual id rid i (match_of id i).
Proof.
  unfold mutualb, mutual, match_of. destruct (nth_error id i) as [[k|]|]; try discriminate.
  destruct (nth_error rid k) as [[b|]|] eqn:E; try discriminate. intros H. apply Nat.eqb_eq in H. subst b. auto.
Qed.
Lemma mutual_mutualb id rid i j : mutual id rid i j -> mutualb id rid i = true /\ match_of id i = j.
Proof. intros (A & B). unfold mutualb, match_of. rewrite A, B, Nat.eqb_refl. auto. Qed.

Lemma clean_ok ngal id rid :
  (forall i, i < ngal -> exists k, nth_error id i = Some (Some k) /\ k < length rid) ->
  xmatch_clean_best ngal id rid = Ok (filter (mutualb id rid) (seq 0 ngal),
    map (match_of id) (filter (mutualb id rid) (seq 0 ngal)), filter (fun i => negb (mutualb id rid i)) (seq 0 ngal)).
Proof.
  intros H. unfold xmatch_clean_best.
  match goal with |- ofold ?f _ _ = _ =>
    destruct (ofold_seq_inv (fun i s => s = (filter (mutualb id rid) (seq 0 i), map (match_of id) (filter (mutualb id rid) (seq 0 i)),
       filter (fun i => negb (mutualb id rid i)) (seq 0 i))) f ngal 0 ([], [], [])) as (s & E & Hs) end.
  - reflexivity.
  - intros i s Hi ->. destruct (H i) as (k & Hk & Hl); [lia|].
    assert (i < length id) by (apply nth_error_Some; congruence).
    destruct (Nat.ltb_spec i (length id)); [|lia]. cbn [check obind]. unfold oget. rewrite Hk. cbn [obind].
    destruct (Nat.ltb_spec k (length rid)); [|lia]. cbn [check obind].
    destruct (nth_error rid k) as [b|] eqn:Eb; [|apply nth_error_None in Eb; lia]. cbn [obind].
    assert (Em : mutualb id rid i = match b with Some b => b =? i | None => false end).
    { unfold mutualb. rewrite Hk, Eb. reflexivity. }
    assert (Ek : match_of id i = k) by (unfold match_of; rewrite Hk; reflexivity).
    replace (i + 1) with (S i) by lia. rewrite seq_S, !filter_app, map_app. cbn [Nat.add filter]. rewrite Em.
    destruct b as [b|].
    + destruct (b =? i); cbn [map negb]; rewrite ?app_nil_r, ?Ek; eexists; (split; [reflexivity|reflexivity]).
    + cbn [map negb]. rewrite ?app_nil_r. eexists. split; reflexivity.
  - rewrite E, Hs. reflexivity.
Qed.
Lemma clean_fail ngal id rid i : i < ngal -> (forall i', i' < i -> exists k, nth_error id i' = Some (Some k) /\ k < length rid) ->
  nth_error id i = Some None \/ (exists k, nth_error id i = Some (Some k) /\ length rid <= k) \/ nth_error id i = None ->
  xmatch_clean_best ngal id rid = CheckFail.
Proof.
  intros Hi Hpre Hf. unfold xmatch_clean_best. replace ngal with (i + S (ngal - i - 1)) by lia. rewrite seq_app.
  cbn [Nat.add seq]. rewrite ofold_app. fold (xmatch_clean_best i id rid). rewrite clean_ok by exact Hpre. cbn [obind ofold].
  unfold oget. destruct Hf as [Hf|[(k & Hf & Hk)|Hf]].
  - destruct (Nat.ltb_spec i (length id)); [|reflexivity]. cbn [check obind]. rewrite Hf. reflexivity.
  - destruct (Nat.ltb_spec i (length id)); [|reflexivity]. cbn [check obind]. rewrite Hf. cbn [obind].
    destruct (Nat.ltb_spec k (length rid)); [lia|reflexivity].
  - apply nth_error_None in Hf. destruct (Nat.ltb_spec i (length id)); [lia|reflexivity].
Qed.
