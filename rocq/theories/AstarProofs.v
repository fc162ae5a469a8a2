From Verif Require Import Base IndexSpec IndexProofs VecModel VecSpec VecProofs AstarModel AstarSpec.
From Coq Require Import ZifyBool.

Section BFS.
Context (d0 d1 : nat).

Definition inside (p : cell) : Prop := fst p < d0 /\ snd p < d1.
Definition pos (p : cell) : nat := fst p * d1 + snd p.

Lemma pos_lt p : inside p -> pos p < d0 * d1.
Proof. unfold inside, pos. intros [H1 H2]. nia. Qed.
Lemma pos_inj p q : inside p -> inside q -> pos p = pos q -> p = q.
Proof.
  unfold inside, pos. destruct p as [a b], q as [a' b']. cbn [fst snd]. intros [H1 H2] [H3 H4] E.
  assert (a = a') by nia. subst. f_equal. lia.
Qed.

Context (m : list bool) (s0 : cell).
Hypothesis Lm : length m = d0 * d1.
Hypothesis S0 : fst s0 < d0 /\ snd s0 < d1.

(* state between two neighbours of round k: [l] is the part of the frontier already
   expanded *)
Definition inv (k : nat) (s : astate) : Prop :=
  length (as_visit s) = d0 * d1 /\
  (forall p, In p (as_open s) -> inside p /\ manhattan s0 p = S k) /\
  (forall p, inside p -> nth_error (as_visit s) (pos p) = Some true <->
     (manhattan s0 p <= k \/ In p (as_open s))) /\
  (forall p, inside p -> nth_error (as_visit s) (pos p) = Some true -> nth_error m (pos p) = Some false).

Definition cell_of (t : Z * Z) : cell := (Z.to_nat (fst t), Z.to_nat (snd t)).
Definition good_nb (k : nat) (t : Z * Z) : Prop :=
  (0 <= fst t)%Z -> (0 <= snd t)%Z -> manhattan s0 (cell_of t) <= S k.

Lemma visit_ok k s t : inv k s -> good_nb k t ->
  exists found s', astar_visit d0 d1 m (false, s) t = Ok (found, s') /\
  (found = true -> inside (as_x s', as_y s') /\ manhattan s0 (as_x s', as_y s') = S k /\
     nth_error m (pos (as_x s', as_y s')) = Some true /\
     forall p, inside p -> manhattan s0 p <= k -> nth_error m (pos p) = Some false) /\
  (found = false -> inv k s' /\ (forall p, In p (as_open s) -> In p (as_open s')) /\
     ((0 <= fst t)%Z -> (0 <= snd t)%Z -> inside (cell_of t) -> nth_error (as_visit s') (pos (cell_of t)) = Some true)).
Proof.
  intros (L & O & V & F) G. unfold astar_visit.
  destruct (Z.ltb_spec (fst t) 0) as [H1|H1]; cbn [orb].
  { exists false, s. split; [reflexivity|]. split; [discriminate|]. intros _. split; [exact (conj L (conj O (conj V F)))|].
    split; [auto|]. lia. }
  destruct (Z.ltb_spec (snd t) 0) as [H2|H2].
  { exists false, s. split; [reflexivity|]. split; [discriminate|]. intros _. split; [exact (conj L (conj O (conj V F)))|].
    split; [auto|]. lia. }
  specialize (G H1 H2). unfold cell_of in *.
  set (x := Z.to_nat (fst t)) in *. set (y := Z.to_nat (snd t)) in *. clearbody x y. cbn zeta.
  destruct (Nat.leb_spec d0 x) as [H3|H3]; cbn [orb].
  { eexists _, _. split; [reflexivity|]. split; [discriminate|]. intros _. cbn [as_open as_visit].
    split; [exact (conj L (conj O (conj V F)))|]. split; [auto|]. unfold inside; cbn [fst snd]; lia. }
  destruct (Nat.leb_spec d1 y) as [H4|H4].
  { eexists _, _. split; [reflexivity|]. split; [discriminate|]. intros _. cbn [as_open as_visit].
    split; [exact (conj L (conj O (conj V F)))|]. split; [auto|]. unfold inside; cbn [fst snd]; lia. }
  assert (I : inside (x, y)) by (split; assumption). pose proof (pos_lt _ I) as B.
  change (x * d1 + y) with (pos (x, y)). 
  destruct (nth_error (as_visit s) (pos (x, y))) as [seen|] eqn:E1;
    [|apply nth_error_None in E1; lia].
  unfold oget at 1. rewrite E1. cbn [obind].
  destruct seen.
  { eexists _, _. split; [reflexivity|]. split; [discriminate|]. intros _. cbn [as_open as_visit].
    split; [exact (conj L (conj O (conj V F)))|]. split; [auto|]. intros _ _ _. exact E1. }
  assert (D : manhattan s0 (x, y) = S k).
  { destruct (Nat.le_gt_cases (manhattan s0 (x, y)) k) as [C|C]; [|lia].
    assert (nth_error (as_visit s) (pos (x, y)) = Some true) by (apply V; auto). congruence. }
  destruct (nth_error m (pos (x, y))) as [b|] eqn:E2; [|apply nth_error_None in E2; lia].
  unfold oget at 1. rewrite E2. cbn [obind].
  destruct b.
  - eexists _, _. split; [reflexivity|]. cbn [as_x as_y]. split; [|discriminate]. intros _.
    split; [exact I|]. split; [exact D|]. split; [exact E2|].
    intros p Hp Hd. apply F; [exact Hp|]. apply V; auto.
  - unfold oset. replace (pos (x, y) <? length (as_visit s)) with true by (symmetry; apply Nat.ltb_lt; lia).
    cbn [obind]. eexists _, _. split; [reflexivity|]. split; [discriminate|]. intros _.
    cbn [as_open as_visit as_x as_y].
    assert (N : forall p, inside p -> p <> (x, y) ->
      nth_error (upd (as_visit s) (pos (x, y)) true) (pos p) = nth_error (as_visit s) (pos p)).
    { intros p Hp Hn. apply nth_error_upd_other. intro C. apply Hn. apply pos_inj; auto. }
    assert (N1 : nth_error (upd (as_visit s) (pos (x, y)) true) (pos (x, y)) = Some true).
    { apply nth_error_upd_same. lia. }
    assert (DEC : forall p : cell, p = (x, y) \/ p <> (x, y)).
    { intros [a b]. destruct (Nat.eq_dec a x), (Nat.eq_dec b y); subst; auto; right; congruence. }
    split; [|split; [intros p Hp; apply in_or_app; auto | intros _ _ _; exact N1]].
    split; [|split; [|split]]; cbn [as_open as_visit].
    + rewrite upd_length. exact L.
    + intros p Hp. apply in_app_or in Hp as [Hp|[<-|[]]]; [apply O; exact Hp|auto].
    + intros p Hp. destruct (DEC p) as [->|Hn].
      * rewrite N1. split; [intros _; right; apply in_or_app; simpl; auto|reflexivity].
      * rewrite N by assumption. rewrite (V p Hp). rewrite in_app_iff. simpl. intuition congruence.
    + intros p Hp. destruct (DEC p) as [->|Hn]; [intros _; exact E2|].
      rewrite N by assumption. apply F. exact Hp.
Qed.

Lemma visit_fold k ts s : inv k s -> Forall (good_nb k) ts ->
  exists found s', ofold (astar_visit d0 d1 m) ts (false, s) = Ok (found, s') /\
  (found = true -> inside (as_x s', as_y s') /\ manhattan s0 (as_x s', as_y s') = S k /\
     nth_error m (pos (as_x s', as_y s')) = Some true /\
     forall p, inside p -> manhattan s0 p <= k -> nth_error m (pos p) = Some false) /\
  (found = false -> inv k s' /\ (forall p, In p (as_open s) -> In p (as_open s')) /\
     forall t, In t ts -> (0 <= fst t)%Z -> (0 <= snd t)%Z -> inside (cell_of t) ->
       nth_error (as_visit s') (pos (cell_of t)) = Some true).
Proof.
  revert s. induction ts as [|t ts IH]; intros s Hi Hg.
  - exists false, s. split; [reflexivity|]. split; [discriminate|]. intros _. simpl. intuition.
  - inversion Hg as [|? ? G1 G2]; subst. destruct (visit_ok k s t Hi G1) as (f & s1 & E & T & Fa).
    cbn [ofold]. rewrite E. cbn [obind]. destruct f.
    + exists true, s1. split.
      { clear. induction ts as [|t ts IH]; [reflexivity|]. cbn [ofold astar_visit obind]. exact IH. }
      split; [intros _; apply T; reflexivity|discriminate].
    + destruct (Fa eq_refl) as (I1 & Mo & Vt). destruct (IH s1 I1 G2) as (f2 & s2 & E2 & T2 & F2).
      exists f2, s2. split; [exact E2|]. split; [exact T2|]. intros Hf. destruct (F2 Hf) as (I2 & Mo2 & V2).
      split; [exact I2|]. split; [auto|]. intros u [<-|Hu] P1 P2 P3; [|auto].
      pose proof (Vt P1 P2 P3) as K. destruct I1 as (_ & _ & V1 & _). destruct I2 as (_ & _ & V2' & _).
      apply V2'; [exact P3|]. apply V1 in K; [|exact P3]. destruct K; auto.
Qed.

(* every cell further away has a neighbour one step closer *)
Lemma step_closer p k : inside p -> manhattan s0 p = S k ->
  exists q, inside q /\ manhattan s0 q = k /\
    exists t, In t (neighbours q) /\ (0 <= fst t)%Z /\ (0 <= snd t)%Z /\ cell_of t = p.
Proof.
  destruct s0 as [a b], p as [x y]. unfold manhattan, absdiff, inside, cell_of, neighbours. cbn [fst snd] in *.
  intros [Hx Hy] E.
  destruct (Nat.lt_total a x) as [C|[C|C]].
  - exists (x - 1, y). cbn [fst snd]. split; [lia|]. split; [lia|]. exists (Z.of_nat (x - 1) + 1, Z.of_nat y)%Z.
    cbn [fst snd]. split; [simpl; auto|]. split; [lia|]. split; [lia|]. f_equal; lia.
  - destruct (Nat.lt_total b y) as [C2|[C2|C2]]; [| lia |].
    + exists (x, y - 1). cbn [fst snd]. split; [lia|]. split; [lia|]. exists (Z.of_nat x, Z.of_nat (y - 1) + 1)%Z.
      cbn [fst snd]. split; [simpl; auto|]. split; [lia|]. split; [lia|]. f_equal; lia.
    + exists (x, y + 1). cbn [fst snd]. split; [lia|]. split; [lia|]. exists (Z.of_nat x, Z.of_nat (y + 1) - 1)%Z.
      cbn [fst snd]. split; [simpl; auto|]. split; [lia|]. split; [lia|]. f_equal; lia.
  - exists (x + 1, y). cbn [fst snd]. split; [lia|]. split; [lia|]. exists (Z.of_nat (x + 1) - 1, Z.of_nat y)%Z.
    cbn [fst snd]. split; [simpl; auto|]. split; [lia|]. split; [lia|]. f_equal; lia.
Qed.

Lemma neighbours_close q t : In t (neighbours q) -> good_nb (manhattan s0 q) t.
Proof.
  unfold good_nb, manhattan, absdiff, cell_of, neighbours. destruct s0 as [a b], q as [x y]. cbn [fst snd] in *.
  intros H P1 P2. simpl in H. destruct H as [<-|[<-|[<-|[<-|[]]]]]; cbn [fst snd] in *; lia.
Qed.

(* state at the top of round k: the frontier is exactly the set of cells at distance k *)
Definition top (k : nat) (s : astate) : Prop :=
  length (as_visit s) = d0 * d1 /\
  (forall p, In p (as_open s) <-> inside p /\ manhattan s0 p = k) /\
  (forall p, inside p -> nth_error (as_visit s) (pos p) = Some true <-> manhattan s0 p <= k) /\
  (forall p, inside p -> manhattan s0 p <= k -> nth_error m (pos p) = Some false).

Lemma none_beyond k : (forall p, inside p -> manhattan s0 p <> k) ->
  forall p, inside p -> manhattan s0 p < k.
Proof.
  intros H p Hp. destruct (Nat.lt_ge_cases (manhattan s0 p) k) as [C|C]; [exact C|].
  exfalso. remember (manhattan s0 p) as j eqn:E. symmetry in E. revert p Hp E.
  induction j as [|j IH]; intros p Hp E.
  - apply (H p Hp). lia.
  - destruct (Nat.eq_dec (S j) k) as [C1|C1]; [apply (H p Hp); lia|].
    destruct (step_closer p j Hp E) as (q & Hq & Dq & _). apply (IH ltac:(lia) q Hq Dq).
Qed.

Lemma far_bound p : inside p -> S (manhattan s0 p) <= d0 + d1.
Proof. destruct s0, p. unfold inside, manhattan, absdiff in *. cbn [fst snd] in *. lia. Qed.

Lemma loop_ok fuel k s : top k s -> d0 + d1 <= fuel + k ->
  exists b c, astar_loop fuel d0 d1 m s = Ok (b, c) /\
  (b = true -> inside c /\ nth_error m (pos c) = Some true /\
     forall p, inside p -> nth_error m (pos p) = Some true -> manhattan s0 c <= manhattan s0 p) /\
  (b = false -> forall p, inside p -> nth_error m (pos p) = Some false).
Proof.
  revert k s. induction fuel as [|fuel IH]; intros k s (L & O & V & F) B.
  - assert (E : as_open s = []).
    { destruct (as_open s) as [|p l] eqn:E; [reflexivity|].
      assert (Hp : inside p /\ manhattan s0 p = k) by (apply O; left; reflexivity).
      pose proof (far_bound p (proj1 Hp)). lia. }
    exists false, (as_x s, as_y s). simpl. rewrite E. split; [reflexivity|]. split; [discriminate|].
    intros _ p Hp. apply F; [exact Hp|]. apply Nat.lt_le_incl. apply none_beyond; [|exact Hp].
    intros q Hq Dq. assert (In q (as_open s)) by (apply O; auto). rewrite E in *. contradiction.
  - cbn [astar_loop]. destruct (as_open s) as [|p0 l0] eqn:E.
    + exists false, (as_x s, as_y s). split; [reflexivity|]. split; [discriminate|].
      intros _ p Hp. apply F; [exact Hp|]. apply Nat.lt_le_incl. apply none_beyond; [|exact Hp].
      intros q Hq Dq. assert (In q []) by (apply O; auto). contradiction.
    + set (open := p0 :: l0) in *. clearbody open. 
      set (s1 := mk_astate (as_x s) (as_y s) [] (as_visit s)).
      assert (I1 : inv k s1).
      { split; [exact L|]. split; [intros p []|]. split.
        - intros p Hp. cbn [as_visit as_open s1]. rewrite (V p Hp). simpl. tauto.
        - intros p Hp Hv. apply F; [exact Hp|]. apply V; assumption. }
      assert (G : Forall (good_nb k) (flat_map neighbours open)).
      { apply Forall_forall. intros t Ht. apply in_flat_map in Ht as (q & Hq & Ht).
        apply O in Hq as [Hq <-]. apply neighbours_close. exact Ht. }
      destruct (visit_fold k _ s1 I1 G) as (f & s2 & E2 & T2 & F2). rewrite E2. cbn [obind].
      destruct f.
      * destruct (T2 eq_refl) as (Ic & Dc & Mc & Fc). exists true, (as_x s2, as_y s2). split; [reflexivity|].
        split; [|discriminate]. intros _. split; [exact Ic|]. split; [exact Mc|].
        intros p Hp Hm. rewrite Dc. destruct (Nat.le_gt_cases (manhattan s0 p) k) as [C|C]; [|exact C].
        rewrite (Fc p Hp C) in Hm. discriminate.
      * destruct (F2 eq_refl) as ((L2 & O2 & V2 & M2) & _ & N2).
        assert (ALL : forall p, inside p -> manhattan s0 p = S k -> nth_error (as_visit s2) (pos p) = Some true).
        { intros p Hp Dp. destruct (step_closer p k Hp Dp) as (q & Hq & Dq & t & Ht & P1 & P2 & <-).
          apply N2; auto. apply in_flat_map. exists q. split; [|exact Ht]. apply O. auto. }
        apply (IH (S k) s2); [|lia]. split; [exact L2|]. split; [|split].
        -- intros p. split; [apply O2|]. intros [Hp Dp]. pose proof (ALL p Hp Dp) as K. apply V2 in K; [|exact Hp].
           destruct K; [lia|assumption].
        -- intros p Hp. rewrite (V2 p Hp). split.
           ++ intros [C|C]; [lia|]. apply O2 in C. lia.
           ++ intros C. destruct (Nat.eq_dec (manhattan s0 p) (S k)) as [D|D]; [|left; lia].
              apply V2; auto.
        -- intros p Hp C. apply M2; [exact Hp|]. destruct (Nat.eq_dec (manhattan s0 p) (S k)) as [D|D]; [auto|].
           apply V2; [exact Hp|]. left. lia.
Qed.
End BFS.

Lemma elem_pos (m : vec bool) d0 d1 x y : v_dims m = [d0; d1] -> elem m [x; y] = nth_error (v_data m) (x * d1 + y).
Proof. intros D. unfold elem. rewrite D. unfold row_major. cbn [horner]. reflexivity. Qed.

Lemma astar_ok (m : vec bool) d0 d1 x y : wf m -> v_dims m = [d0; d1] -> 0 < d0 -> 0 < d1 ->
  exists b c, astar_find m x y = Ok (b, c) /\
  (b = true -> true_cell m d0 d1 c /\
     forall p, true_cell m d0 d1 p -> manhattan (clamped d0 d1 x y) c <= manhattan (clamped d0 d1 x y) p) /\
  (b = false -> forall p, ~ true_cell m d0 d1 p).
Proof.
  intros [L _] D P0 P1. rewrite D in L. change (nprod [d0; d1]) with (d0 * (d1 * 1)) in L. rewrite Nat.mul_1_r in L.
  unfold astar_find. rewrite D. unfold v_empty, v_size.
  replace (length (v_data m) =? 0) with false by (symmetry; apply Nat.eqb_neq; nia). cbn [negb check obind].
  set (sx := if d0 <=? x then d0 - 1 else x). set (sy := if d1 <=? y then d1 - 1 else y).
  assert (Ex : sx = Nat.min x (d0 - 1)) by (unfold sx; destruct (Nat.leb_spec d0 x); lia).
  assert (Ey : sy = Nat.min y (d1 - 1)) by (unfold sy; destruct (Nat.leb_spec d1 y); lia).
  unfold clamped. rewrite <- Ex, <- Ey.
  assert (I : inside d0 d1 (sx, sy)) by (unfold inside; cbn [fst snd]; lia).
  clearbody sx sy. pose proof (pos_lt d0 d1 _ I) as B. change (sx * d1 + sy) with (pos d1 (sx, sy)).
  destruct (nth_error (v_data m) (pos d1 (sx, sy))) as [b|] eqn:E; [|apply nth_error_None in E; lia].
  unfold oget at 1. rewrite E. cbn [obind].
  assert (TC : forall p, true_cell m d0 d1 p <-> inside d0 d1 p /\ nth_error (v_data m) (pos d1 p) = Some true).
  { intros [a c]. unfold true_cell, inside. rewrite (elem_pos m d0 d1) by exact D. cbn [fst snd]. unfold pos. cbn [fst snd]. tauto. }
  destruct b.
  - exists true, (sx, sy). split; [reflexivity|]. split; [|discriminate]. intros _. split; [apply TC; auto|].
    intros p _. unfold manhattan, absdiff. cbn [fst snd]. lia.
  - unfold oset. rewrite repeat_length. replace (pos d1 (sx, sy) <? d0 * d1) with true by (symmetry; apply Nat.ltb_lt; exact B).
    cbn [obind].
    destruct (loop_ok d0 d1 (v_data m) (sx, sy) L I (d0 + d1) 0
      (mk_astate sx sy [(sx, sy)] (upd (repeat false (d0 * d1)) (pos d1 (sx, sy)) true))) as (b & c & E1 & T1 & F1).
    + assert (Z0 : forall p, inside d0 d1 p -> manhattan (sx, sy) p = 0 <-> p = (sx, sy)).
      { intros [a c] _. unfold manhattan, absdiff. cbn [fst snd]. split; [intros; f_equal; lia|].
        intros H. injection H as -> ->. lia. }
      split; [cbn [as_visit]; rewrite upd_length; apply repeat_length|]. split; [|split]; cbn [as_visit as_open].
      * intros p. split.
        -- intros [<-|[]]. split; [exact I|]. apply Z0; auto.
        -- intros [Hp Dp]. apply Z0 in Dp; [|exact Hp]. left. auto.
      * intros p Hp. rewrite Nat.le_0_r, Z0 by exact Hp. split.
        -- intros H. destruct (Nat.eq_dec (pos d1 p) (pos d1 (sx, sy))) as [C|C]; [apply (pos_inj d0 d1); assumption|].
           rewrite nth_error_upd_other in H by congruence. rewrite nth_error_repeat in H by (apply pos_lt; exact Hp). discriminate.
        -- intros ->. apply nth_error_upd_same. rewrite repeat_length. exact B.
      * intros p Hp C. assert (manhattan (sx, sy) p = 0) as C0 by lia. apply Z0 in C0; [|exact Hp]. subst p. exact E.
    + lia.
    + exists b, c. split; [exact E1|]. split.
      * intros Hb. destruct (T1 Hb) as (Ic & Mc & Op). split; [apply TC; auto|]. intros p Hp. apply TC in Hp as [Hp Mp]. auto.
      * intros Hb p Hp. apply TC in Hp as [Hp Mp]. rewrite (F1 Hb p Hp) in Mp. discriminate.
Qed.

Lemma astar_empty (m : vec bool) d0 d1 x y : wf m -> v_dims m = [d0; d1] -> d0 = 0 \/ d1 = 0 ->
  astar_find m x y = CheckFail.
Proof.
  intros [L _] D P. rewrite D in L. change (nprod [d0; d1]) with (d0 * (d1 * 1)) in L.
  unfold astar_find, v_empty, v_size. rewrite D, L. replace (d0 * (d1 * 1)) with 0 by nia. reflexivity.
Qed.
