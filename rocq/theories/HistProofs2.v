(* Proofs for bins and running sums. *)
From Coq Require Import QArith Permutation Lqa.
From Verif Require Import Base OrderModel InterpModel HistModel HistSpec InterpSpec IndexProofs VecProofs InterpProofs
  ReduceProofs ReduceProofs2 ReduceProofs3 HistProofs.
Local Open Scope nat_scope.

Lemma make_bins_nth : forall mi ma n i, i < n ->
  nth_error (make_bins mi ma n) i =
  Some (mi + inject_Z (Z.of_nat i) * ((ma - mi) / inject_Z (Z.of_nat n)),
        mi + inject_Z (Z.of_nat (i + 1)) * ((ma - mi) / inject_Z (Z.of_nat n)))%Q.
Proof. intros. unfold make_bins. rewrite nth_error_map, nth_error_seq0 by auto. reflexivity. Qed.

Lemma make_bins_len : forall mi ma n, length (make_bins mi ma n) = n.
Proof. intros. unfold make_bins. now rewrite map_length, seq_length. Qed.

Lemma make_bins_lt : forall mi ma n i b, nth_error (make_bins mi ma n) i = Some b -> i < n.
Proof. intros. rewrite <- (make_bins_len mi ma n). apply nth_error_Some. congruence. Qed.

Lemma inject_nat_S : forall n, (inject_Z (Z.of_nat (n + 1)) == inject_Z (Z.of_nat n) + 1)%Q.
Proof. intros. rewrite Nat2Z.inj_add, inject_Z_plus. reflexivity. Qed.

Lemma inject_nat_pos : forall n, 0 < n -> (0 < inject_Z (Z.of_nat n))%Q.
Proof. intros. change 0%Q with (inject_Z 0). rewrite <- Zlt_Qlt. lia. Qed.

Lemma make_bins_contiguous : forall mi ma n, (mi <= ma)%Q -> contiguous (make_bins mi ma n).
Proof.
  intros mi ma n Le. split.
  - intros b I. apply In_nth_error in I. destruct I as (i & N).
    assert (i < n) by (eapply make_bins_lt; eauto).
    rewrite make_bins_nth in N by auto. injection N as <-. cbn [fst snd].
    assert (0 <= (ma - mi) / inject_Z (Z.of_nat n))%Q.
    { apply Qle_shift_div_l; [apply inject_nat_pos; lia|]. lra. }
    rewrite inject_nat_S. lra.
  - intros k a b Na Nb.
    assert (k + 1 < n) by (eapply make_bins_lt; eauto).
    rewrite make_bins_nth in Na, Nb by lia. injection Na as <-. injection Nb as <-. reflexivity.
Qed.

Lemma make_bins_ends : forall mi ma n first last, 0 < n ->
  nth_error (make_bins mi ma n) 0 = Some first -> nth_error (make_bins mi ma n) (n - 1) = Some last ->
  (fst first == mi /\ snd last == ma)%Q.
Proof.
  intros mi ma n f l P N0 Nl. rewrite make_bins_nth in N0, Nl by lia. injection N0 as <-. injection Nl as <-.
  cbn [fst snd]. split.
  - change (inject_Z (Z.of_nat 0)) with 0%Q. ring.
  - replace (n - 1 + 1) with n by lia. field. pose proof (inject_nat_pos n P). lra.
Qed.

Lemma make_bins_width : forall mi ma n b, In b (make_bins mi ma n) ->
  (bin_width b == (ma - mi) / inject_Z (Z.of_nat n))%Q.
Proof.
  intros mi ma n b I. apply In_nth_error in I. destruct I as (i & N).
  assert (i < n) by (eapply make_bins_lt; eauto).
  rewrite make_bins_nth in N by auto. injection N as <-. unfold bin_width. cbn [fst snd].
  rewrite inject_nat_S. ring.
Qed.

Lemma from_edges_ok : forall v, 2 <= length v ->
  exists b, bins_from_edges v = Ok b /\ length b = length v - 1 /\
    forall i lo hi, nth_error v i = Some lo -> nth_error v (i + 1) = Some hi -> nth_error b i = Some (lo, hi).
Proof.
  intros v L. unfold bins_from_edges. destruct (Nat.ltb_spec 1 (length v)); [|lia]. cbn [check obind].
  destruct (omapl_ok _ _ (fun i => a <- oget v i ;; b <- oget v (i + 1) ;; Ok (a, b))
    (fun i => match nth_error v i, nth_error v (i + 1) with Some a, Some b => Some (a, b) | _, _ => None end)
    (seq 0 (length v - 1))) as (r & E & Lr & R).
  { intros i I. apply in_seq in I.
    destruct (nth_error v i) as [a|] eqn:Na; [|apply nth_error_None in Na; lia].
    destruct (nth_error v (i + 1)) as [b|] eqn:Nb; [|apply nth_error_None in Nb; lia].
    exists (a, b). rewrite (proj2 (oget_Ok _ _ _ _) Na). cbn [obind].
    rewrite (proj2 (oget_Ok _ _ _ _) Nb). auto. }
  exists r. split; [exact E|]. rewrite seq_length in Lr. split; auto.
  intros i lo hi Nl Nh.
  assert (i + 1 < length v) by (apply nth_error_Some; congruence).
  etransitivity; [apply (R i i); apply nth_error_seq0; lia|]. rewrite Nl, Nh. auto.
Qed.

Lemma from_edges_contiguous : forall v b, bins_from_edges v = Ok b -> nondecreasing v -> contiguous b.
Proof.
  intros v b E ND.
  assert (2 <= length v).
  { unfold bins_from_edges in E. destruct (Nat.ltb_spec 1 (length v)); [lia|discriminate]. }
  destruct (from_edges_ok v H) as (b' & E' & L & N). assert (b' = b) by congruence. subst b'.
  assert (G : forall i c, nth_error b i = Some c -> nth_error v i = Some (fst c) /\ nth_error v (i + 1) = Some (snd c)).
  { intros i c Nc. assert (i < length b) by (apply nth_error_Some; congruence).
    destruct (nth_error v i) as [a1|] eqn:Na; [|apply nth_error_None in Na; lia].
    destruct (nth_error v (i + 1)) as [b1|] eqn:Nb; [|apply nth_error_None in Nb; lia].
    rewrite (N i a1 b1) in Nc by auto. injection Nc as <-. auto. }
  split.
  - intros c I. apply In_nth_error in I. destruct I as (i & Nc). destruct (G _ _ Nc) as [A B].
    apply (nondecreasing_mono v i (i + 1)); auto; lia.
  - intros k x y Nx Ny. destruct (G _ _ Nx) as [_ A]. destruct (G _ _ Ny) as [B _].
    assert (snd x = fst y) by congruence. rewrite H0. reflexivity.
Qed.

Lemma in_bin_open_unique : forall bins q, contiguous bins -> 2 <= length bins ->
  exists i, in_bin_open (Some q) bins i = Ok true /\
    forall j, in_bin_open (Some q) bins j = Ok true -> j = i.
Proof.
  intros bins q C L.
  set (n := length bins) in *.
  destruct (nth_error bins 0) as [first|] eqn:N0; [|apply nth_error_None in N0; lia].
  destruct (nth_error bins (n - 1)) as [last|] eqn:Nl; [|apply nth_error_None in Nl; unfold n in *; lia].
  assert (ord : forall c, In c bins -> (fst c <= snd c)%Q) by apply C.
  assert (OPEN : forall i b, nth_error bins i = Some b ->
     (in_bin_open (Some q) bins i = Ok true <->
      ((i <> 0 -> (fst b <= q)%Q) /\ (i <> n - 1 -> (q < snd b)%Q)))).
  { intros i b Nb. assert (i < n) by (apply nth_error_Some; congruence).
    unfold in_bin_open. fold n. destruct (Nat.ltb_spec i n); [|lia]. cbn [check obind].
    rewrite (proj2 (oget_Ok _ _ _ _) Nb). cbn [obind].
    destruct (Nat.eqb_spec i 0); [|destruct (Nat.eqb_spec i (n - 1))].
    - split.
      + intros E. injection E as E. apply qlt_true in E. split; [lia|auto].
      + intros [_ U]. f_equal. apply qlt_true. apply U. lia.
    - split.
      + intros E. injection E as E. apply Qle_bool_iff in E. split; [auto|lia].
      + intros [U _]. f_equal. apply Qle_bool_iff. apply U. lia.
    - split.
      + intros E. injection E as E. apply Bool.andb_true_iff in E. rewrite Qle_bool_iff, qlt_true in E. tauto.
      + intros [A B]. f_equal. apply Bool.andb_true_iff. rewrite Qle_bool_iff, qlt_true. auto. }
  assert (EX : exists i b, nth_error bins i = Some b /\ (i <> 0 -> (fst b <= q)%Q) /\ (i <> n - 1 -> (q < snd b)%Q)).
  { destruct (Qlt_le_dec q (snd first)).
    { exists 0, first. split; auto. split; [lia|auto]. }
    destruct (Qlt_le_dec q (fst last)).
    2:{ exists (n - 1), last. split; auto. split; [auto|lia]. }
    destruct (proj2 (contiguous_hull bins (Some q) first last C N0 Nl)) as (b & I & q' & Eq & Lo & Up).
    { exists q. split; auto. cbn. assert (fst first <= snd first)%Q by (apply ord; eapply nth_error_In; eauto).
      assert (fst last <= snd last)%Q by (apply ord; eapply nth_error_In; eauto). split; lra. }
    injection Eq as <-. apply In_nth_error in I. destruct I as (i & Ni). exists i, b. auto. }
  destruct EX as (i & b & Ni & Lo & Up). exists i. split; [apply (OPEN i b Ni); auto|].
  intros j Ej.
  destruct (nth_error bins j) as [c|] eqn:Nj.
  2:{ unfold in_bin_open in Ej. apply nth_error_None in Nj. destruct (Nat.ltb_spec j (length bins)); [lia|discriminate]. }
  apply (OPEN j c Nj) in Ej. destruct Ej as [Lj Uj].
  assert (i < n) by (apply nth_error_Some; congruence). assert (j < n) by (apply nth_error_Some; congruence).
  destruct (Nat.lt_trichotomy i j) as [Lt|[?|Lt]]; auto; exfalso.
  - pose proof (contiguous_before _ C j i b c Lt Ni Nj). assert (q < snd b)%Q by (apply Up; lia).
    assert (fst c <= q)%Q by (apply Lj; lia). lra.
  - pose proof (contiguous_before _ C i j c b Lt Nj Ni). assert (q < snd c)%Q by (apply Uj; lia).
    assert (fst b <= q)%Q by (apply Lo; lia). lra.
Qed.

(* bins from centres *)
Lemma from_centers_ok : forall v, 2 <= length v -> increasing v ->
  exists b, bins_from_centers v = Ok b /\ length b = length v /\ contiguous b /\
    (forall i c x, nth_error b i = Some c -> nth_error v i = Some x -> (fst c < x /\ x < snd c)%Q) /\
    (forall i c x y, nth_error b i = Some c -> nth_error v i = Some x -> nth_error v (i + 1) = Some y ->
        (snd c == (1 # 2) * (x + y))%Q).
Proof.
  intros v L INC. unfold bins_from_centers. destruct (Nat.ltb_spec 1 (length v)); [|lia]. cbn [check obind].
  set (n := length v) in *.
  set (at_ := fun i => nth i v 0%Q).
  assert (AT : forall i, i < n -> nth_error v i = Some (at_ i)).
  { intros. unfold at_. apply nth_error_nth'. auto. }
  set (hi := fun i => if i =? n - 1 then (at_ (n - 1)%nat + (1 # 2) * (at_ (n - 1)%nat - at_ (n - 2)%nat))%Q
                      else ((1 # 2) * (at_ i + at_ (i + 1)%nat))%Q).
  set (lo := fun i => if i =? 0 then (at_ 0%nat - (1 # 2) * (at_ 1%nat - at_ 0%nat))%Q else hi (i - 1)).
  set (step := fun (b : list bin) i =>
      lo <- (if i =? 0 then v0 <- oget v 0 ;; v1 <- oget v 1 ;; Ok (v0 - (1 # 2) * (v1 - v0))%Q
             else p <- oget b (i - 1) ;; Ok (snd p)) ;;
      hi <- (if i =? n - 1 then a <- oget v (n - 1) ;; c <- oget v (n - 2) ;; Ok (a + (1 # 2) * (a - c))%Q
             else a <- oget v i ;; c <- oget v (i + 1) ;; Ok ((1 # 2) * (a + c))%Q) ;;
      Ok (b ++ [(lo, hi)])).
  assert (G : forall k m, m + k = n ->
     ofold step (seq m k) (map (fun i => (lo i, hi i)) (seq 0 m)) = Ok (map (fun i => (lo i, hi i)) (seq 0 n))).
  { induction k; intros m E.
    - cbn. now replace n with m by lia.
    - cbn [seq ofold]. assert (S1 : step (map (fun i => (lo i, hi i)) (seq 0 m)) m = Ok (map (fun i => (lo i, hi i)) (seq 0 (S m)))).
      { unfold step.
        assert (E1 : (if m =? 0 then v0 <- oget v 0 ;; v1 <- oget v 1 ;; Ok (v0 - (1 # 2) * (v1 - v0))%Q
             else p <- oget (map (fun i => (lo i, hi i)) (seq 0 m)) (m - 1) ;; Ok (snd p)) = Ok (lo m)).
        { unfold lo. destruct (Nat.eqb_spec m 0) as [->|Nz].
          - rewrite (proj2 (oget_Ok _ _ _ _) (AT 0 ltac:(lia))). cbn [obind].
            rewrite (proj2 (oget_Ok _ _ _ _) (AT 1 ltac:(lia))). auto.
          - rewrite (proj2 (oget_Ok _ _ _ (lo (m - 1), hi (m - 1)))); auto.
            rewrite nth_error_map, nth_error_seq0 by lia. auto. }
        rewrite E1. cbn [obind].
        assert (E2 : (if m =? n - 1 then a <- oget v (n - 1) ;; c <- oget v (n - 2) ;; Ok (a + (1 # 2) * (a - c))%Q
             else a <- oget v m ;; c <- oget v (m + 1) ;; Ok ((1 # 2) * (a + c))%Q) = Ok (hi m)).
        { unfold hi. destruct (Nat.eqb_spec m (n - 1)) as [->|Nz].
          - rewrite (proj2 (oget_Ok _ _ _ _) (AT (n - 1) ltac:(lia))). cbn [obind].
            rewrite (proj2 (oget_Ok _ _ _ _) (AT (n - 2) ltac:(lia))). auto.
          - rewrite (proj2 (oget_Ok _ _ _ _) (AT m ltac:(lia))). cbn [obind].
            rewrite (proj2 (oget_Ok _ _ _ _) (AT (m + 1) ltac:(lia))). auto. }
        rewrite E2. cbn [obind]. rewrite seq_S, map_app. auto. }
      rewrite S1. cbn [obind]. apply IHk. lia. }
  assert (INCa : forall i j, i < j < n -> (at_ i < at_ j)%Q).
  { intros i j Hij. apply (increasing_lt v INC i j); [lia|apply AT; lia|apply AT; lia]. }
  assert (LO : forall i, i < n -> (lo i < at_ i)%Q).
  { intros i Hi. unfold lo. destruct (Nat.eqb_spec i 0) as [->|].
    - pose proof (INCa 0 1 ltac:(lia)). lra.
    - unfold hi. destruct (Nat.eqb_spec (i - 1) (n - 1)); [lia|].
      replace (i - 1 + 1) with i by lia. pose proof (INCa (i - 1) i ltac:(lia)). lra. }
  assert (HI : forall i, i < n -> (at_ i < hi i)%Q).
  { intros i Hi. unfold hi. destruct (Nat.eqb_spec i (n - 1)) as [->|].
    - pose proof (INCa (n - 2) (n - 1) ltac:(lia)). lra.
    - pose proof (INCa i (i + 1) ltac:(lia)). lra. }
  exists (map (fun i => (lo i, hi i)) (seq 0 n)).
  assert (NB : forall i c, nth_error (map (fun i => (lo i, hi i)) (seq 0 n)) i = Some c -> i < n /\ c = (lo i, hi i)).
  { intros i c N. assert (Hi : i < n).
    { replace n with (length (map (fun i => (lo i, hi i)) (seq 0 n))) by now rewrite map_length, seq_length.
      apply nth_error_Some. congruence. }
    rewrite nth_error_map, nth_error_seq0 in N by auto. cbn in N. split; congruence. }
  split; [apply (G n 0); lia|]. split; [now rewrite map_length, seq_length|]. split; [|split].
  - split.
    + intros c I. apply In_nth_error in I. destruct I as (i & N). apply NB in N. destruct N as [Hi ->]. cbn [fst snd].
      pose proof (LO i Hi). pose proof (HI i Hi). lra.
    + intros k a b Na Nb. apply NB in Na, Nb. destruct Na as [_ ->], Nb as [Hk ->]. cbn [fst snd].
      unfold lo. destruct (Nat.eqb_spec (k + 1) 0); [lia|]. replace (k + 1 - 1) with k by lia. reflexivity.
  - intros i c x N Nx. apply NB in N. destruct N as [Hi ->]. cbn [fst snd].
    rewrite AT in Nx by auto. injection Nx as <-. auto.
  - intros i c x y N Nx Ny. apply NB in N. destruct N as [Hi ->]. cbn [snd].
    assert (i + 1 < n) by (apply nth_error_Some; congruence).
    rewrite AT in Nx, Ny by auto. injection Nx as <-. injection Ny as <-.
    unfold hi. destruct (Nat.eqb_spec i (n - 1)); [lia|]. reflexivity.
Qed.

(* running sums *)
Lemma zsum_upto_S : forall y i v, nth_error y (S i) = Some v -> (zsum_upto (S i) y = zsum_upto i y + v)%Z.
Proof.
  unfold zsum_upto. induction y; intros i v N; [discriminate|]. destruct i.
  - cbn in N. destruct y; [discriminate|]. injection N as ->. cbn. lia.
  - cbn [nth_error] in N. specialize (IHy i v N). cbn [Nat.add firstn fold_right] in *. lia.
Qed.

Lemma cumul_ok : forall y, exists r, cumul y = Ok r /\ length r = length y /\
  forall i, i < length y -> nth_error r i = Some (zsum_upto i y).
Proof.
  intros y. unfold cumul. set (n := length y).
  set (F := fun dr i => _).
  set (st := fun m => map (fun i => zsum_upto i y) (seq 0 m) ++ repeat 0%Z (n - m)).
  assert (G : forall k m, m + k = n -> ofold F (seq m k) (st m) = Ok (st n)).
  { induction k; intros m E.
    - cbn. now replace n with m by lia.
    - cbn [seq ofold].
      destruct (nth_error y m) as [v|] eqn:Nv; [|apply nth_error_None in Nv; fold n in Nv; lia].
      assert (S1 : F (st m) m = Ok (st (S m))).
      { unfold F.
        assert (E0 : st m = map (fun i => zsum_upto i y) (seq 0 m) ++ 0%Z :: repeat 0%Z (n - S m)).
        { unfold st. replace (n - m) with (S (n - S m)) by lia. reflexivity. }
        assert (LM : length (map (fun i => zsum_upto i y) (seq 0 m)) = m) by now rewrite map_length, seq_length.
        assert (U : forall a b, upd (map (fun i => zsum_upto i y) (seq 0 m) ++ a :: repeat 0%Z (n - S m)) m b
           = map (fun i => zsum_upto i y) (seq 0 m) ++ b :: repeat 0%Z (n - S m)).
        { intros. rewrite upd_app_r by lia. rewrite LM, Nat.sub_diag. reflexivity. }
        assert (P : forall a, nth_error (map (fun i => zsum_upto i y) (seq 0 m) ++ a :: repeat 0%Z (n - S m)) m = Some a).
        { intros. rewrite nth_error_app2 by lia. rewrite LM, Nat.sub_diag. auto. }
        assert (Q1 : (if m =? 0 then Ok (st m) else p <- oget (st m) (m - 1) ;; oset (st m) m p) =
           Ok (map (fun i => zsum_upto i y) (seq 0 m) ++ (if m =? 0 then 0%Z else zsum_upto (m - 1) y) :: repeat 0%Z (n - S m))).
        { rewrite E0. destruct (Nat.eqb_spec m 0); auto.
          rewrite (proj2 (oget_Ok _ _ _ (zsum_upto (m - 1) y))).
          - cbn [obind]. unfold oset. rewrite app_length, LM. cbn [length].
            destruct (Nat.ltb_spec m (m + S (length (repeat 0%Z (n - S m))))); [|lia]. rewrite U. auto.
          - rewrite nth_error_app1 by lia. rewrite nth_error_map, nth_error_seq0 by lia. auto. }
        rewrite Q1. cbn [obind]. rewrite (proj2 (oget_Ok _ _ _ _) (P _)). cbn [obind].
        rewrite (proj2 (oget_Ok _ _ _ _) Nv). cbn [obind]. unfold oset. rewrite app_length, LM. cbn [length].
        destruct (Nat.ltb_spec m (m + S (length (repeat 0%Z (n - S m))))); [|lia]. rewrite U. f_equal.
        unfold st. rewrite seq_S, map_app, <- app_assoc. f_equal. cbn. f_equal.
        destruct m; cbn [Nat.eqb].
        - unfold zsum_upto. destruct y; [discriminate|]. injection Nv as <-. cbn. lia.
        - rewrite Nat.sub_succ, Nat.sub_0_r. symmetry. apply zsum_upto_S. auto. }
      rewrite S1. cbn [obind]. apply IHk. lia. }
  exists (st n). split; [|split].
  - rewrite <- (G n 0) by lia. unfold st. rewrite Nat.sub_0_r. reflexivity.
  - unfold st. rewrite app_length, map_length, seq_length, repeat_length. lia.
  - intros i Hi. unfold st. rewrite nth_error_app1 by (rewrite map_length, seq_length; auto).
    rewrite nth_error_map, nth_error_seq0 by auto. auto.
Qed.

(* what the code computes: y[i] + y[i+1] *)
Definition pair_sum (y : list Z) (i : nat) : Z := (nth i y 0 + nth (i + 1) y 0)%Z.

Lemma cumul_reverse_ok : forall y, exists r, cumul_reverse y = Ok r /\ length r = length y /\
  forall i, i < length y -> nth_error r i = Some (pair_sum y i).
Proof.
  intros y. unfold cumul_reverse. set (n := length y).
  set (F := fun dr i => _).
  set (st := fun m => repeat 0%Z (n - m) ++ map (pair_sum y) (seq (n - m) m)).
  assert (G : forall k m, m + k = n -> ofold F (seq m k) (st m) = Ok (st n)).
  { induction k; intros m E.
    - cbn. now replace n with m by lia.
    - cbn [seq ofold]. set (ri := n - 1 - m).
      destruct (nth_error y ri) as [v|] eqn:Nv; [|apply nth_error_None in Nv; fold n in Nv; lia].
      assert (S1 : F (st m) m = Ok (st (S m))).
      { unfold F. cbv zeta. fold ri.
        set (R := map (pair_sum y) (seq (n - m) m)).
        assert (E0 : st m = repeat 0%Z ri ++ 0%Z :: R).
        { unfold st, R. replace (n - m) with (ri + 1) at 1 by lia. rewrite repeat_app, <- app_assoc. auto. }
        assert (LM : length (repeat 0%Z ri) = ri) by now rewrite repeat_length.
        assert (U : forall a b, upd (repeat 0%Z ri ++ a :: R) ri b = repeat 0%Z ri ++ b :: R).
        { intros. rewrite upd_app_r by lia. rewrite LM, Nat.sub_diag. reflexivity. }
        assert (P : forall a, nth_error (repeat 0%Z ri ++ a :: R) ri = Some a).
        { intros. rewrite nth_error_app2 by lia. rewrite LM, Nat.sub_diag. auto. }
        assert (Q1 : (if m =? 0 then Ok (st m) else p <- oget y (ri + 1) ;; oset (st m) ri p) =
           Ok (repeat 0%Z ri ++ (nth (ri + 1) y 0%Z) :: R)).
        { rewrite E0. destruct (Nat.eqb_spec m 0).
          - rewrite nth_overflow by (fold n; lia). auto.
          - rewrite (proj2 (oget_Ok _ _ _ (nth (ri + 1) y 0%Z))) by (apply nth_error_nth'; fold n; lia).
            cbn [obind]. unfold oset. rewrite app_length, LM. cbn [length].
            destruct (Nat.ltb_spec ri (ri + S (length R))); [|lia]. rewrite U. auto. }
        rewrite Q1. cbn [obind]. rewrite (proj2 (oget_Ok _ _ _ _) (P _)). cbn [obind].
        rewrite (proj2 (oget_Ok _ _ _ _) Nv). cbn [obind]. unfold oset. rewrite app_length, LM. cbn [length].
        destruct (Nat.ltb_spec ri (ri + S (length R))); [|lia]. rewrite U. f_equal.
        unfold st. replace (n - S m) with ri by lia. f_equal. cbn [seq map]. f_equal.
        - unfold pair_sum. rewrite (nth_error_nth _ _ 0%Z Nv). lia.
        - unfold R. do 2 f_equal. lia. }
      rewrite S1. cbn [obind]. apply IHk. lia. }
  exists (st n). split; [|split].
  - rewrite <- (G n 0) by lia. unfold st. rewrite Nat.sub_0_r, app_nil_r. reflexivity.
  - unfold st. rewrite app_length, map_length, seq_length, repeat_length. lia.
  - intros i Hi. unfold st. rewrite Nat.sub_diag. cbn [repeat app].
    rewrite nth_error_map, nth_error_seq0 by auto. auto.
Qed.
