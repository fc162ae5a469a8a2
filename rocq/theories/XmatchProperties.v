(* C45, C46: brute-force cross matching. *)
From Coq Require Import ZifyBool ZifyNat.
From Verif Require Import Base IndexModel IndexProofs VecModel VecSpec VecProofs VecProofs2 ImageModel ImageProofs MatModel MatProofs XmatchModel XmatchSpec XmatchProofs XmatchProofs2 XmatchProofs3 XmatchProofs4.

(* Column i of the result lists the nth nearest candidates of source i with their distances, in
   order, and is filled up with npos. *)
Theorem C45_nearest {T} (conv : Z -> T) dist n1 n2 nth thread assigned self no_mirror linear :
  0 < n1 -> 0 < n2 -> (Z.of_nat n1 <= max_ptrs)%Z -> split_ok n1 thread assigned ->
  exists o, qxmatch_brute conv dist n1 n2 nth thread assigned self no_mirror linear = Ok o /\
    length (o_id o) = Nat.max nth 1 * n1 /\ length (o_d o) = Nat.max nth 1 * n1 /\
    forall i, i < n1 -> exists l, n_nearest (Nat.max nth 1) (candidates dist n2 self i) l /\ length l = Nat.max nth 1 /\
      forall k e, nth_error l k = Some e ->
        nth_error (o_id o) (k * n1 + i) = Some (option_map snd e) /\
        nth_error (o_d o) (k * n1 + i) = Some (proxy_to_true linear conv (option_map fst e)).
Proof.
  intros H1 H2 Hb Ht. destruct (qx_ok conv dist n1 n2 nth thread assigned self no_mirror linear H1 H2 Hb Ht)
    as (o & R & E & (L1 & I1) & (L2 & I2) & _). exists o. split; [exact E|]. split; [exact L1|]. split; [exact L2|].
  intros i Hi. exists (colf dist (Nat.max nth 1) self i n2).
  assert (Hc : n_nearest (Nat.max nth 1) (candidates dist n2 self i) (colf dist (Nat.max nth 1) self i n2))
    by (unfold colf; apply colstep_nearest; lia).
  assert (Hl : length (colf dist (Nat.max nth 1) self i n2) = Nat.max nth 1).
  { destruct Hc as (s & _ & _ & ->). rewrite firstn_length, app_length, repeat_length. lia. }
  split; [exact Hc|]. split; [exact Hl|]. intros k e He.
  assert (Hk : k < Nat.max nth 1) by (rewrite <- Hl; apply nth_error_Some; congruence).
  rewrite I1, I2 by assumption. rewrite (nth_error_nth _ _ None He). split; reflexivity.
Qed.
Print Assumptions C45_nearest.

(* The list of the nth nearest candidates is unique: the result is determined by the distances. *)
Theorem C45_unique n cand l1 l2 : n_nearest n cand l1 -> n_nearest n cand l2 -> l1 = l2.
Proof.
  intros (s1 & P1 & S1 & ->) (s2 & P2 & S2 & ->). f_equal. f_equal. f_equal.
  assert (P : Permutation s1 s2) by (etransitivity; [symmetry; exact P1|exact P2]). clear P1 P2.
  revert s2 P S2. induction s1 as [|a s1 IH]; intros s2 P S2.
  - apply Permutation_nil in P. congruence.
  - destruct s2 as [|b s2]; [symmetry in P; apply Permutation_nil in P; discriminate|].
    inversion_clear S1 as [|? ? Sa Fa]. inversion_clear S2 as [|? ? Sb Fb].
    assert (a = b).
    { assert (Ia : In a (b :: s2)) by (apply (Permutation_in _ P); left; reflexivity).
      assert (Ib : In b (a :: s1)) by (apply (Permutation_in _ (Permutation_sym P)); left; reflexivity).
      destruct Ia as [|Ia]; [congruence|]. destruct Ib as [|Ib]; [congruence|].
      rewrite Forall_forall in Fa, Fb. specialize (Fa _ Ib). specialize (Fb _ Ia). unfold nearer in Fa, Fb. lia. }
    subst b. f_equal. apply IH; [assumption| |assumption]. apply Permutation_cons_inv in P. exact P.
Qed.
Print Assumptions C45_unique.

(* The reverse match of source j of the second catalogue is at the smallest distance; with one
   thread it is the first source at that distance. *)
Theorem C45_mirror {T} (conv : Z -> T) dist n1 n2 nth thread assigned self linear :
  0 < n1 -> 0 < n2 -> (Z.of_nat n1 <= max_ptrs)%Z -> split_ok n1 thread assigned ->
  exists o, qxmatch_brute conv dist n1 n2 nth thread assigned self false linear = Ok o /\
    length (o_rid o) = n2 /\ length (o_rd o) = n2 /\
    forall j, j < n2 -> exists e, is_nearest (candidates (fun j i => dist i j) n1 self j) e /\
      (thread <= 1 -> n_nearest 1 (candidates (fun j i => dist i j) n1 self j) [e]) /\
      nth_error (o_rid o) j = Some (option_map snd e) /\
      nth_error (o_rd o) j = Some (proxy_to_true linear conv (option_map fst e)).
Proof.
  intros H1 H2 Hb Ht. destruct (qx_ok conv dist n1 n2 nth thread assigned self false linear H1 H2 Hb Ht)
    as (o & R & E & _ & _ & HM & _ & HB & HR). destruct (HM eq_refl) as ((L1 & I1) & (L2 & I2)).
  exists o. split; [exact E|]. split; [exact L1|]. split; [exact L2|].
  intros j Hj. exists (R j). split; [apply best_nearest, HB|]. split.
  - intros Ht1. rewrite (HR Ht1), mirf_col. apply colstep_nearest. lia.
  - rewrite I1, I2 by assumption. split; reflexivity.
Qed.
Print Assumptions C45_mirror.

Theorem C45_no_mirror {T} (conv : Z -> T) dist n1 n2 nth thread assigned self linear :
  0 < n1 -> 0 < n2 -> (Z.of_nat n1 <= max_ptrs)%Z -> split_ok n1 thread assigned ->
  exists o, qxmatch_brute conv dist n1 n2 nth thread assigned self true linear = Ok o /\ o_rid o = [] /\ o_rd o = [].
Proof.
  intros H1 H2 Hb Ht. destruct (qx_ok conv dist n1 n2 nth thread assigned self true linear H1 H2 Hb Ht)
    as (o & R & E & _ & _ & _ & HM & _). exists o. split; [exact E|]. apply HM; reflexivity.
Qed.
Print Assumptions C45_no_mirror.

(* The number of threads changes neither the matches, nor the distances, nor the reverse
   distances. *)
Theorem C45_threads {T} (conv : Z -> T) dist n1 n2 nth t1 a1 t2 a2 self no_mirror linear :
  0 < n1 -> 0 < n2 -> (Z.of_nat n1 <= max_ptrs)%Z -> split_ok n1 t1 a1 -> split_ok n1 t2 a2 ->
  exists o1 o2, qxmatch_brute conv dist n1 n2 nth t1 a1 self no_mirror linear = Ok o1 /\
    qxmatch_brute conv dist n1 n2 nth t2 a2 self no_mirror linear = Ok o2 /\
    o_id o1 = o_id o2 /\ o_d o1 = o_d o2 /\ o_rd o1 = o_rd o2.
Proof.
  intros H1 H2 Hb Ht1 Ht2.
  destruct (qx_ok conv dist n1 n2 nth t1 a1 self no_mirror linear H1 H2 Hb Ht1) as (o1 & R1 & E1 & A1 & B1 & C1 & D1 & F1 & _).
  destruct (qx_ok conv dist n1 n2 nth t2 a2 self no_mirror linear H1 H2 Hb Ht2) as (o2 & R2 & E2 & A2 & B2 & C2 & D2 & F2 & _).
  exists o1, o2. split; [exact E1|]. split; [exact E2|].
  assert (RU : forall A (u v : list A) n m M, rep n m u M -> rep n m v M -> u = v).
  { intros A u v n m M (La & Ia) (Lb & Ib). apply list_eq_nth_error. intros p.
    destruct (Nat.lt_ge_cases p (n * m)) as [Hp|Hp].
    - assert (m <> 0) by lia. assert (p / m < n) by (apply Nat.div_lt_upper_bound; lia).
      assert (p mod m < m) by (apply Nat.mod_upper_bound; lia).
      rewrite (Nat.div_mod p m) by lia. rewrite (Nat.mul_comm m). rewrite Ia, Ib by assumption. reflexivity.
    - rewrite (proj2 (nth_error_None u p)), (proj2 (nth_error_None v p)) by lia. reflexivity. }
  split; [apply (RU _ _ _ _ _ _ A1 A2)|]. split; [apply (RU _ _ _ _ _ _ B1 B2)|].
  destruct no_mirror.
  - destruct (D1 eq_refl) as (_ & ->), (D2 eq_refl) as (_ & ->). reflexivity.
  - destruct (C1 eq_refl) as (_ & (L1 & I1)), (C2 eq_refl) as (_ & (L2 & I2)).
    apply list_eq_nth_error. intros p. destruct (Nat.lt_ge_cases p n2) as [Hp|Hp].
    + rewrite I1, I2 by assumption. rewrite (best_dist dist self 0 n1 p (R1 p) (R2 p) (F1 p) (F2 p)). reflexivity.
    + rewrite (proj2 (nth_error_None (o_rd o1) p)), (proj2 (nth_error_None (o_rd o2) p)) by lia. reflexivity.
Qed.
Print Assumptions C45_threads.

(* Finding: the index of the reverse match does depend on the number of threads when two sources
   are at the same distance (the merge of the threads prefers the last one, the scan the first). *)
Theorem C45_thread_ties_refuted : exists dist n1 n2 o1 o2,
  qxmatch_brute (fun x => x) dist n1 n2 1 1 0 false false true = Ok o1 /\
  qxmatch_brute (fun x => x) dist n1 n2 1 2 1 false false true = Ok o2 /\
  split_ok n1 2 1 /\ o_rid o1 <> o_rid o2.
Proof.
  exists (fun _ _ => Some 3%Z), 2, 1. do 2 eexists. split; [vm_compute; reflexivity|]. split; [vm_compute; reflexivity|].
  split; [right; lia|]. discriminate.
Qed.
Print Assumptions C45_thread_ties_refuted.

(* Finding: with more threads than sources the program stops with an error. *)
Theorem C45_more_threads_than_sources {T} (conv : Z -> T) dist n1 n2 nth thread self no_mirror linear :
  0 < n1 -> 0 < n2 -> (Z.of_nat n1 <= max_ptrs)%Z -> 2 <= thread ->
  qxmatch_brute conv dist n1 n2 nth thread 0 self no_mirror linear = CheckFail.
Proof.
  intros H1 H2 Hb Ht. unfold qxmatch_brute. destruct (Nat.eqb_spec n1 0); [lia|]. destruct (Nat.eqb_spec n2 0); [lia|].
  cbn [orb]. rewrite brute_idle; [reflexivity|lia..|exact Ht|lia].
Qed.
Print Assumptions C45_more_threads_than_sources.

(* Finding: the distance of a missing neighbour is infinite in linear mode only; it is NaN on
   the sphere. *)
Theorem C45_missing_angular_refuted : exists o,
  qxmatch_brute (fun x => x) (fun _ _ => Some 3%Z) 1 1 2 1 0 false true false = Ok o /\
  o_id o = [Some 0; None] /\ o_d o = [Fin 3%Z; NaN].
Proof. eexists. split; [vm_compute; reflexivity|]. split; reflexivity. Qed.
Print Assumptions C45_missing_angular_refuted.

(* An empty catalogue: nothing matches, and all distances are infinite. *)
Theorem C45_empty {T} (conv : Z -> T) dist n1 n2 nth thread assigned self no_mirror linear : n1 = 0 \/ n2 = 0 ->
  exists o, qxmatch_brute conv dist n1 n2 nth thread assigned self no_mirror linear = Ok o /\
    length (o_id o) = Nat.max nth 1 * n1 /\ length (o_d o) = Nat.max nth 1 * n1 /\
    length (o_rid o) = (if no_mirror then 0 else n2) /\ length (o_rd o) = (if no_mirror then 0 else n2) /\
    Forall (eq None) (o_id o) /\ Forall (eq None) (o_rid o) /\ Forall (eq Inf) (o_d o) /\ Forall (eq Inf) (o_rd o).
Proof.
  intros H. unfold qxmatch_brute. replace ((n1 =? 0) || (n2 =? 0)) with true by lia. eexists. split; [reflexivity|].
  cbn [o_id o_d o_rid o_rd]. rewrite !repeat_length.
  assert (F : forall A (x : A) n, Forall (eq x) (repeat x n)).
  { intros A x n. apply Forall_forall. intros y Hy. apply repeat_spec in Hy. congruence. }
  repeat split; apply F.
Qed.
Print Assumptions C45_empty.

(* The pairs kept by xmatch_clean_best are exactly the mutual matches, in increasing order; no
   source appears twice, and lost lists the other sources of the first catalogue. *)
Theorem C46_clean_best ngal id rid :
  (forall i, i < ngal -> exists k, nth_error id i = Some (Some k) /\ k < length rid) ->
  exists id1 id2 lost, xmatch_clean_best ngal id rid = Ok (id1, id2, lost) /\
    length id1 = length id2 /\
    (forall i j, In (i, j) (combine id1 id2) <-> i < ngal /\ mutual id rid i j) /\
    NoDup id1 /\ NoDup id2 /\ StronglySorted lt id1 /\ StronglySorted lt lost /\
    (forall i, In i lost <-> i < ngal /\ ~ In i id1).
Proof.
  intros H. do 3 eexists. split; [apply clean_ok; exact H|].
  split; [rewrite map_length; reflexivity|].
  assert (Hp : forall (l : list nat) i j, In (i, j) (combine l (map (match_of id) l)) <-> In i l /\ j = match_of id i).
  { clear. induction l as [|a l IH]; intros i j; cbn; [tauto|]. rewrite IH. split.
    - intros [[= <- <-]|[A B]]; auto.
    - intros [[<-|A] ->]; auto. }
  assert (Hs : forall f b n, StronglySorted lt (filter f (seq b n))).
  { intros f b n. revert b. induction n as [|n IH]; intros b; cbn [seq filter]; [constructor|].
    destruct (f b); [|apply IH]. constructor; [apply IH|]. apply Forall_forall. intros x Hx.
    apply filter_In in Hx. destruct Hx as [Hx _]. apply in_seq in Hx. lia. }
  split; [|split; [|split; [|split; [|split]]]].
  - intros i j. rewrite Hp, filter_In, in_seq. split.
    + intros ((A & B) & ->). split; [lia|]. apply mutualb_spec, B.
    + intros (A & B). destruct (mutual_mutualb _ _ _ _ B) as (C & D). split; [split; [lia|exact C]|auto].
  - apply NoDup_filter, seq_NoDup.
  - pose proof (NoDup_filter (mutualb id rid) (seq_NoDup ngal 0)) as ND.
    assert (Hm : forall x, In x (filter (mutualb id rid) (seq 0 ngal)) -> mutualb id rid x = true)
      by (intros x Hx; apply filter_In in Hx; tauto).
    revert ND Hm. generalize (filter (mutualb id rid) (seq 0 ngal)). intros l ND Hm.
    induction l as [|a l IH]; cbn [map]; [constructor|]. inversion_clear ND as [|? ? Na Nl]. constructor.
    + intros C. apply in_map_iff in C. destruct C as (x & Hx & Hin).
      assert (Ma : mutualb id rid a = true) by (apply Hm; left; reflexivity).
      assert (Mx : mutualb id rid x = true) by (apply Hm; right; exact Hin).
      apply mutualb_spec in Ma, Mx. destruct Ma as [_ Ma], Mx as [_ Mx]. rewrite Hx, Ma in Mx. injection Mx as ->. contradiction.
    + apply IH; [exact Nl|]. intros x Hx. apply Hm. right; exact Hx.
  - apply Hs.
  - apply Hs.
  - intros i. rewrite !filter_In, in_seq. destruct (mutualb id rid i); cbn [negb]; intuition (try lia; try discriminate).
Qed.
Print Assumptions C46_clean_best.

(* After a brute-force match without self mode where every source has a candidate, the pairs are
   mutual nearest neighbours. *)
Theorem C46_mutual_nearest {T} (conv : Z -> T) dist n1 n2 nth thread assigned linear :
  0 < n1 -> 0 < n2 -> (Z.of_nat n1 <= max_ptrs)%Z -> split_ok n1 thread assigned ->
  (forall i j, dist i j <> None) ->
  exists o id1 id2 lost, qxmatch_brute conv dist n1 n2 nth thread assigned false false linear = Ok o /\
    xmatch_clean_best n1 (o_id o) (o_rid o) = Ok (id1, id2, lost) /\ NoDup id1 /\ NoDup id2 /\ length id1 = length id2 /\
    forall i j, In (i, j) (combine id1 id2) -> i < n1 /\ j < n2 /\ exists x, dist i j = Some x /\
      (forall j' x', j' < n2 -> dist i j' = Some x' -> (x <= x')%Z) /\
      (forall i' x', i' < n1 -> dist i' j = Some x' -> (x <= x')%Z).
Proof.
  intros H1 H2 Hb Ht Hd.
  destruct (C45_nearest conv dist n1 n2 nth thread assigned false false linear H1 H2 Hb Ht) as (o & E & _ & _ & HN).
  destruct (C45_mirror conv dist n1 n2 nth thread assigned false linear H1 H2 Hb Ht) as (o' & E' & L & _ & HM).
  rewrite E in E'. injection E' as <-.
  assert (HN' : forall i, i < n1 -> exists c, nth_error (o_id o) i = Some (Some (snd c)) /\ is_nearest (candidates dist n2 false i) (Some c)).
  { intros i Hi. destruct (HN i Hi) as (l & (s & P & S & Hl) & Ll & HI).
    destruct s as [|c s].
    - exfalso. apply Permutation_sym, Permutation_nil in P.
      destruct (dist i 0) as [x|] eqn:Ed; [|exact (Hd i 0 Ed)].
      assert (C : In (x, 0) (candidates dist n2 false i)) by (apply candidates_in; cbn; auto). rewrite P in C. destruct C.
    - exists c. split.
      + destruct (HI 0 (Some c)) as [A _]; [|exact A]. subst l. destruct (Nat.max nth 1) eqn:Em; [lia|]. reflexivity.
      + split; [apply (Permutation_in _ (Permutation_sym P)); left; reflexivity|].
        intros c' Hc'. apply (Permutation_in _ P) in Hc'. destruct Hc' as [<-|Hc']; [lia|].
        inversion_clear S as [|? ? _ F]. rewrite Forall_forall in F. specialize (F _ Hc'). unfold nearer in F. lia. }
  destruct (C46_clean_best n1 (o_id o) (o_rid o)) as (id1 & id2 & lost & Ec & Hl & Hp & N1 & N2 & _).
  { intros i Hi. destruct (HN' i Hi) as (c & A & (B & _)). apply candidates_in in B. exists (snd c). rewrite L. split; [exact A|]. tauto. }
  exists o, id1, id2, lost. split; [exact E|]. split; [exact Ec|]. split; [exact N1|]. split; [exact N2|]. split; [exact Hl|].
  intros i j Hij. apply Hp in Hij. destruct Hij as (Hi & Mi & Mj).
  destruct (HN' i Hi) as (c & A & (B & C)). rewrite A in Mi. injection Mi as <-.
  pose proof (proj1 (candidates_in _ _ _ _ _) B) as (Bj & _ & Bd).
  split; [exact Hi|]. split; [exact Bj|]. exists (fst c). split; [exact Bd|]. split.
  - intros j' x' Hj' Ex. apply (C (x', j')). apply candidates_in; cbn; auto.
  - intros i' x' Hi' Ex. destruct (HM _ Bj) as (e & He & _ & Hr & _). rewrite Mj in Hr. injection Hr as Hr.
    destruct e as [e|]; [|discriminate]. injection Hr as Hr. destruct He as (He & Hmin).
    apply candidates_in in He. destruct He as (_ & _ & He). cbn in He. rewrite <- Hr in He.
    assert (fst e = fst c) by congruence.
    specialize (Hmin (x', i')). rewrite candidates_in in Hmin. cbn in Hmin. specialize (Hmin (conj Hi' (conj eq_refl Ex))). lia.
Qed.
Print Assumptions C46_mutual_nearest.

(* Finding: a source without a match makes xmatch_clean_best stop with an error, and so does
   a result computed with no_mirror. *)
Theorem C46_unmatched_abort ngal id rid i : i < ngal ->
  (forall i', i' < i -> exists k, nth_error id i' = Some (Some k) /\ k < length rid) ->
  nth_error id i = Some None -> xmatch_clean_best ngal id rid = CheckFail.
Proof. intros. eapply clean_fail; eauto. Qed.
Print Assumptions C46_unmatched_abort.
Theorem C46_no_mirror_abort ngal id : 0 < ngal -> xmatch_clean_best ngal id [] = CheckFail.
Proof.
  intros H. apply (clean_fail ngal id [] 0 H); [lia|]. cbn [length].
  destruct (nth_error id 0) as [[k|]|]; [right; left; exists k; split; [reflexivity|lia]|left; reflexivity|right; right; reflexivity].
Qed.
Print Assumptions C46_no_mirror_abort.

(* points on a line, squared distances *)
Definition xm_dist (a b : list Z) (i j : nat) : option Z :=
  let x := (nth i a 0 - nth j b 0)%Z in Some (x * x)%Z.
Example C45_ex : qxmatch_brute (fun x => x) (xm_dist [0; 10; 4]%Z [3; 9; 11; 5]%Z) 3 4 2 1 0 false false true =
  Ok (XOut [Some 0; Some 1; Some 0; Some 3; Some 2; Some 3] [Fin 9; Fin 1; Fin 1; Fin 25; Fin 1; Fin 1]%Z
           [Some 2; Some 1; Some 1; Some 2] [Fin 1; Fin 1; Fin 1; Fin 1]%Z).
Proof. vm_compute. reflexivity. Qed.
Example C45_ex_threads : qxmatch_brute (fun x => x) (xm_dist [0; 10; 4]%Z [3; 9; 11; 5]%Z) 3 4 2 2 1 false false true =
  qxmatch_brute (fun x => x) (xm_dist [0; 10; 4]%Z [3; 9; 11; 5]%Z) 3 4 2 1 0 false false true.
Proof. vm_compute. reflexivity. Qed.
Example C45_ex_self : qxmatch_brute (fun x => x) (xm_dist [0; 10; 4]%Z [0; 10; 4]%Z) 3 3 1 1 0 true true true =
  Ok (XOut [Some 2; Some 2; Some 0] [Fin 16; Fin 36; Fin 16]%Z [] []).
Proof. vm_compute. reflexivity. Qed.
Example C46_ex : xmatch_clean_best 3 [Some 0; Some 1; Some 0] [Some 2; Some 1; Some 1; Some 2] = Ok ([1; 2], [1; 0], [0]).
Proof. vm_compute. reflexivity. Qed.
