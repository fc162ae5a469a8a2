(* Blocks, padding and the hexadecimal digest. *)
From Coq Require Import Ascii.
From Verif Require Import Base Sha1Model Sha1Spec IndexProofs VecProofs Sha1Proofs.
Local Open Scope Z_scope.

(* the first 16 entries of the buffer hold a block *)
Definition holds (w : wbuf) (p : list Z) : Prop :=
  length w = 80%nat /\ forall i, (i < 16)%nat -> nth_error w i = Some (Some (word_at p i)).

Lemma inner_rounds : forall h w W, regs_ok h -> agree w W 16 ->
  (forall i, (i < 80)%nat -> ok32 (nth i W 0)) ->
  (forall i, (16 <= i < 80)%nat -> nth i W 0 = wt W i) ->
  exists w', inner_hash h w = Ok (
    (let '(h0, h1, h2, h3, h4) := h in
     let '(a, b, c, d, e) := fold_left (round W) (seq 0 80) h in
     ((a + h0) mod W32, (b + h1) mod W32, (c + h2) mod W32, (d + h3) mod W32, (e + h4) mod W32)), w') /\ length w' = 80%nat.
Proof.
  intros h w W R G O S.
  assert (P1 : forall t n, (t + n <= 20)%nat -> is_phase f_ch 0x5a827999 (seq t n)).
  { intros t n T x X. apply in_seq in X. unfold Kt, ft. destruct (Nat.ltb_spec x 20); [|lia].
    split; auto. intros. now apply f_ch_ok. }
  assert (P2 : is_phase f_par 0x6ed9eba1 (seq 20 20)).
  { intros x X. apply in_seq in X. unfold Kt, ft. destruct (Nat.ltb_spec x 20); [lia|].
    destruct (Nat.ltb_spec x 40); [|lia]. split; auto. }
  assert (P3 : is_phase f_maj 0x8f1bbcdc (seq 40 20)).
  { intros x X. apply in_seq in X. unfold Kt, ft. destruct (Nat.ltb_spec x 20); [lia|].
    destruct (Nat.ltb_spec x 40); [lia|]. destruct (Nat.ltb_spec x 60); [|lia]. split; auto. intros. apply f_maj_ok. }
  assert (P4 : is_phase f_par 0xca62c1d6 (seq 60 20)).
  { intros x X. apply in_seq in X. unfold Kt, ft. destruct (Nat.ltb_spec x 20); [lia|].
    destruct (Nat.ltb_spec x 40); [lia|]. destruct (Nat.ltb_spec x 60); [lia|]. split; auto. }
  unfold inner_hash. rewrite (first_rounds f_ch _ w W 16 16 0 h G ltac:(lia) R (P1 0%nat 16%nat ltac:(lia))). cbn [obind].
  assert (Q : fold_left (round W) (seq 0 80) h = fold_left (round W) (seq 60 20) (fold_left (round W) (seq 40 20)
     (fold_left (round W) (seq 20 20) (fold_left (round W) (seq 16 4) (fold_left (round W) (seq 0 16) h))))).
  { rewrite <- !fold_left_app. reflexivity. }
  rewrite Q. clear Q. 
  pose proof (fold_round_ok W (seq 0 16) h R) as R0. revert R0. generalize (fold_left (round W) (seq 0 16) h). intros r0 R0.
  destruct (later_rounds f_ch 0x5a827999 W 4 16 w r0 G ltac:(lia) ltac:(lia) R0 O S (P1 16%nat 4%nat ltac:(lia))) as (w1 & E1 & G1).
  rewrite E1. cbn [obind]. clear E1.
  pose proof (fold_round_ok W (seq 16 4) r0 R0) as R1. revert R1. generalize (fold_left (round W) (seq 16 4) r0). intros r1 R1.
  destruct (later_rounds f_par 0x6ed9eba1 W 20 20 w1 r1 G1 ltac:(lia) ltac:(lia) R1 O S P2) as (w2 & E2 & G2).
  rewrite E2. cbn [obind]. clear E2.
  pose proof (fold_round_ok W (seq 20 20) r1 R1) as R2. revert R2. generalize (fold_left (round W) (seq 20 20) r1). intros r2 R2.
  destruct (later_rounds f_maj 0x8f1bbcdc W 20 40 w2 r2 G2 ltac:(lia) ltac:(lia) R2 O S P3) as (w3 & E3 & G3).
  rewrite E3. cbn [obind]. clear E3.
  pose proof (fold_round_ok W (seq 40 20) r2 R2) as R3. revert R3. generalize (fold_left (round W) (seq 40 20) r2). intros r3 R3.
  destruct (later_rounds f_par 0xca62c1d6 W 20 60 w3 r3 G3 ltac:(lia) ltac:(lia) R3 O S P4) as (w4 & E4 & G4).
  rewrite E4. cbn [obind]. exists w4. clear E4. destruct h as [[[[h0 h1] h2] h3] h4].
  generalize (fold_left (round W) (seq 60 20) r3). intros [[[[a b] c] d] e]. unfold u32. change two32 with W32.
  rewrite (Z.add_comm a), (Z.add_comm b), (Z.add_comm c), (Z.add_comm d), (Z.add_comm e).
  split; [reflexivity|]. apply G4.
Qed.
Lemma compress_ok : forall h p, regs_ok (compress h p).
Proof.
  intros [[[[h0 h1] h2] h3] h4] p. unfold compress. generalize (schedule (block_words p)). intros W.
  generalize (fold_left (round W) (seq 0 80) (h0, h1, h2, h3, h4)). intros [[[[a b] c] d] e]. repeat split; apply mod_ok.
Qed.
Lemma inner_ok : forall h w p, regs_ok h -> bytes_ok p -> holds w p ->
  exists w', inner_hash h w = Ok (compress h p, w') /\ length w' = 80%nat /\ regs_ok (compress h p).
Proof.
  intros h w p R B (L & Hw).
  assert (LB : length (block_words p) = 16%nat) by reflexivity.
  assert (G : agree w (schedule (block_words p)) 16).
  { split; [exact L|]. intros i I. rewrite Hw by exact I. unfold schedule. rewrite extend_old by lia.
    now rewrite block_words_nth. }
  assert (S : forall i, (16 <= i < 80)%nat -> nth i (schedule (block_words p)) 0 = wt (schedule (block_words p)) i).
  { intros i I. unfold schedule. apply extend_new; lia. }
  destruct (inner_rounds h w _ R G (schedule_ok p B) S) as (w' & E & Lw). exists w'.
  split; [exact E|]. split; [exact Lw|]. apply compress_ok.
Qed.

Lemma clear_ok : forall w, length w = 80%nat -> exists w', clear_w w = Ok w' /\ holds w' (repeat 0 64).
Proof.
  intros w L. do 16 (destruct w as [|? w]; [discriminate|]). unfold clear_w. cbn [rev seq app ofold oset length Nat.ltb Nat.leb upd obind].
  eexists. split; [reflexivity|]. split; [exact L|]. intros i I. do 16 (destruct i as [|i]; [reflexivity|]). lia.
Qed.

(* words from bytes *)
Lemma word_or : forall b0 b1 b2 b3, 0 <= b0 < 256 -> 0 <= b1 < 256 -> 0 <= b2 < 256 -> 0 <= b3 < 256 ->
  Z.lor (Z.lor (Z.lor b3 (Z.shiftl b2 8)) (Z.shiftl b1 16)) (Z.shiftl b0 24) = b0 * 2 ^ 24 + b1 * 2 ^ 16 + b2 * 2 ^ 8 + b3.
Proof.
  intros. rewrite !Z.shiftl_mul_pow2 by lia.
  rewrite (Z.lor_comm b3), (lor_add b2) by lia.
  rewrite (Z.lor_comm (b2 * 2 ^ 8 + b3)), (lor_add b1) by lia.
  rewrite (Z.lor_comm (b1 * 2 ^ 16 + (b2 * 2 ^ 8 + b3))), (lor_add b0) by lia. lia.
Qed.

Lemma nth_of_error : forall (s : list Z) i, (i < length s)%nat -> oget s i = Ok (nth i s 0).
Proof. intros s i I. apply oget_Ok. now apply nth_error_nth'. Qed.

Lemma load_loop : forall s cur n k w, bytes_ok s -> (k + n <= 16)%nat -> (cur + 64 <= length s)%nat -> length w = 80%nat ->
  exists w', ofold (fun w k =>
    b3 <- oget s (cur + 4 * k + 3) ;; b2 <- oget s (cur + 4 * k + 2) ;;
    b1 <- oget s (cur + 4 * k + 1) ;; b0 <- oget s (cur + 4 * k) ;;
    oset w k (Some (Z.lor (Z.lor (Z.lor b3 (Z.shiftl b2 8)) (Z.shiftl b1 16)) (Z.shiftl b0 24))))
    (seq k n) w = Ok w' /\ length w' = 80%nat /\
    forall i, nth_error w' i = if (k <=? i)%nat && (i <? k + n)%nat then Some (Some (word_at (skipn cur s) i)) else nth_error w i.
Proof.
  intros s cur. induction n; intros k w B K C L; cbn [seq ofold].
  - exists w. repeat split; auto. intros i. destruct (Nat.leb_spec k i); cbn [andb]; auto. destruct (Nat.ltb_spec i (k + 0)); [lia|auto].
  - rewrite !nth_of_error by lia. cbn [obind]. rewrite word_or by (now apply byte_nth).
    assert (NS : forall j, nth (cur + j) s 0 = nth j (skipn cur s) 0).
    { intros j. rewrite <- (firstn_skipn cur s) at 1. rewrite app_nth2 by (rewrite firstn_length; lia).
      f_equal. rewrite firstn_length. lia. }
    rewrite <- !Nat.add_assoc, !NS. fold (word_at (skipn cur s) k).
    unfold oset. destruct (Nat.ltb_spec k (length w)); [|lia]. cbn [obind].
    destruct (IHn (S k) (upd w k (Some (word_at (skipn cur s) k)))) as (w' & E & L' & N); auto; try lia.
    { now rewrite upd_length. }
    exists w'. split; [exact E|]. split; [exact L'|]. intros i. rewrite N.
    destruct (Nat.leb_spec (S k) i), (Nat.leb_spec k i); try lia; cbn [andb].
    + destruct (Nat.ltb_spec i (S k + n)), (Nat.ltb_spec i (k + S n)); try lia; auto.
      apply nth_error_upd_other. lia.
    + assert (i = k) by lia. subst. destruct (Nat.ltb_spec k (k + S n)); [|lia]. apply nth_error_upd_same. lia.
    + apply nth_error_upd_other. lia.
Qed.
Lemma word_firstn : forall b i, (i < 16)%nat -> word_at (firstn 64 b) i = word_at b i.
Proof.
  intros b i I. unfold word_at. assert (N : forall j, (j < 64)%nat -> nth j (firstn 64 b) 0 = nth j b 0).
  { intros j J. rewrite <- (firstn_skipn 64 b) at 2. destruct (Nat.lt_ge_cases j (length (firstn 64 b))).
    - now rewrite app_nth1.
    - rewrite nth_overflow by lia. rewrite firstn_length in H. rewrite nth_overflow; auto.
      rewrite app_length, firstn_length, skipn_length. lia. }
  now rewrite !N by lia.
Qed.
Lemma load_ok : forall s cur w, bytes_ok s -> (cur + 64 <= length s)%nat -> length w = 80%nat ->
  exists w', load_block s cur w = Ok w' /\ holds w' (firstn 64 (skipn cur s)).
Proof.
  intros s cur w B C L. destruct (load_loop s cur 16 0 w B ltac:(lia) C L) as (w' & E & L' & N).
  exists w'. split; [exact E|]. split; [exact L'|]. intros i I. rewrite N.
  destruct (Nat.leb_spec 0 i); [|lia]. destruct (Nat.ltb_spec i (0 + 16)); [|lia]. cbn [andb]. now rewrite word_firstn.
Qed.

Lemma bytes_skip : forall s n, bytes_ok s -> bytes_ok (skipn n s).
Proof. intros s n B. red in B. rewrite <- (firstn_skipn n s) in B. now apply Forall_app in B. Qed.
Lemma bytes_first : forall s n, bytes_ok s -> bytes_ok (firstn n s).
Proof. intros s n B. red in B. rewrite <- (firstn_skipn n s) in B. now apply Forall_app in B. Qed.

Lemma full_ok : forall q fuel u r h w, (q <= fuel)%nat -> bytes_ok (u ++ r) -> (64 * q <= length r < 64 * q + 64)%nat ->
  length w = 80%nat -> regs_ok h ->
  exists w', full_blocks fuel (u ++ r) (length u) h w = Ok ((length u + 64 * q)%nat, fold_left compress (blocks q r) h, w') /\
    length w' = 80%nat /\ regs_ok (fold_left compress (blocks q r) h).
Proof.
  induction q; intros fuel u r h w F B L Lw R.
  - exists w. split; [|split; auto].
    assert (E : (length u + 64 <=? length (u ++ r))%nat = false) by (apply Nat.leb_gt; rewrite app_length; lia).
    replace (length u + 64 * 0)%nat with (length u) by lia. destruct fuel; cbn [full_blocks blocks fold_left]; rewrite E; reflexivity.
  - destruct fuel; [lia|]. cbn [full_blocks blocks fold_left].
    assert (E : (length u + 64 <=? length (u ++ r))%nat = true) by (apply Nat.leb_le; rewrite app_length; lia).
    rewrite E. destruct (load_ok (u ++ r) (length u) w B) as (w1 & E1 & H1); auto.
    { rewrite app_length. lia. }
    rewrite E1. cbn [obind].
    assert (SK : skipn (length u) (u ++ r) = r) by (rewrite skipn_app, skipn_all, Nat.sub_diag; reflexivity).
    rewrite SK in H1. assert (Br : bytes_ok r) by (apply Forall_app in B; apply B).
    destruct (inner_ok h w1 (firstn 64 r) R (bytes_first _ _ Br) H1) as (w2 & E2 & L2 & R2). rewrite E2. cbn [obind].
    destruct (IHq fuel (u ++ firstn 64 r) (skipn 64 r) (compress h (firstn 64 r)) w2) as (w3 & E3 & L3 & R3); auto; try lia.
    { now rewrite <- app_assoc, firstn_skipn. }
    { rewrite skipn_length. lia. }
    exists w3. rewrite <- app_assoc, firstn_skipn in E3. rewrite app_length, firstn_length in E3.
    replace (length u + Nat.min 64 (length r))%nat with (length u + 64)%nat in E3 by lia.
    rewrite E3. replace (length u + 64 + 64 * q)%nat with (length u + 64 * Datatypes.S q)%nat by lia. auto.
Qed.

(* --- the last block ------------------------------------------------------------ *)
Lemma nth_upd : forall (p : list Z) m x j, (m < length p)%nat -> nth j (upd p m x) 0 = if (j =? m)%nat then x else nth j p 0.
Proof.
  induction p; intros m x j L; cbn in L; [lia|]. destruct m, j; cbn; auto. apply IHp. lia.
Qed.
Lemma or_byte_ok : forall w p m x, holds w p -> length p = 64%nat -> bytes_ok p -> (m < 64)%nat ->
  nth m p 0 = 0 -> 0 <= x < 256 -> exists w', or_byte w m x = Ok w' /\ holds w' (upd p m x).
Proof.
  intros w p m x (L & H) Lp B M N X. unfold or_byte.
  assert (M4 : (m / 4 < 16)%nat) by (apply Nat.div_lt_upper_bound; lia).
  unfold rdw. rewrite (H _ M4). cbn [obind]. unfold oset. destruct (Nat.ltb_spec (m / 4) (length w)); [|lia]. 
  eexists. split; [reflexivity|]. split; [now rewrite upd_length|]. intros i I.
  pose proof (Nat.div_mod m 4 ltac:(lia)) as DM. pose proof (Nat.mod_upper_bound m 4 ltac:(lia)) as MB.
  destruct (Nat.eq_dec i (m / 4)) as [->|Ni].
  - rewrite nth_error_upd_same by lia. do 2 f_equal.
    assert (LA : Z.land (Z.of_nat m) 3 = Z.of_nat (m mod 4)).
    { change 3 with (Z.ones 2). rewrite Z.land_ones by lia. rewrite Nat2Z.inj_mod. reflexivity. }
    rewrite LA. set (q := (m / 4)%nat) in *.
    unfold word_at. rewrite !nth_upd by lia.
    pose proof (byte_nth p (4 * q) B) as B0. pose proof (byte_nth p (4 * q + 1) B) as B1.
    pose proof (byte_nth p (4 * q + 2) B) as B2. pose proof (byte_nth p (4 * q + 3) B) as B3.
    rewrite (Z.shiftl_mul_pow2 (3 - Z.of_nat (m mod 4)) 3) by lia.
    destruct (m mod 4)%nat as [|[|[|[|r]]]] eqn:EM; try lia; cbn [Z.of_nat Pos.of_succ_nat Pos.succ];
      rewrite Z.shiftl_mul_pow2 by lia.
    + assert (Em : m = (4 * q)%nat) by lia. rewrite <- Em in *. rewrite N in *. rewrite Nat.eqb_refl.
      destruct (Nat.eqb_spec (m + 1) m); [lia|]. destruct (Nat.eqb_spec (m + 2) m); [lia|]. destruct (Nat.eqb_spec (m + 3) m); [lia|].
      change ((3 - 0) * 2 ^ 3) with 24.
      pose proof (lor_fill 0 (nth (m + 1) p 0 * 2 ^ 16 + nth (m + 2) p 0 * 2 ^ 8 + nth (m + 3) p 0) x 24 ltac:(lia)) as F.
      change (2 ^ (24 + 8)) with (2 ^ 32) in F. specialize (F ltac:(lia) X).
      replace (0 * 2 ^ 24 + nth (m + 1) p 0 * 2 ^ 16 + nth (m + 2) p 0 * 2 ^ 8 + nth (m + 3) p 0)
        with (0 * 2 ^ 32 + (nth (m + 1) p 0 * 2 ^ 16 + nth (m + 2) p 0 * 2 ^ 8 + nth (m + 3) p 0)) by lia.
      rewrite F. lia.
    + assert (Em : m = (4 * q + 1)%nat) by lia. rewrite <- Em in *. rewrite N in *. rewrite Nat.eqb_refl.
      destruct (Nat.eqb_spec (4 * q) m); [lia|]. destruct (Nat.eqb_spec (4 * q + 2) m); [lia|]. destruct (Nat.eqb_spec (4 * q + 3) m); [lia|].
      change ((3 - 1) * 2 ^ 3) with 16.
      pose proof (lor_fill (nth (4 * q) p 0) (nth (4 * q + 2) p 0 * 2 ^ 8 + nth (4 * q + 3) p 0) x 16 ltac:(lia)) as F.
      change (2 ^ (16 + 8)) with (2 ^ 24) in F. specialize (F ltac:(lia) X).
      replace (nth (4 * q) p 0 * 2 ^ 24 + 0 * 2 ^ 16 + nth (4 * q + 2) p 0 * 2 ^ 8 + nth (4 * q + 3) p 0)
        with (nth (4 * q) p 0 * 2 ^ 24 + (nth (4 * q + 2) p 0 * 2 ^ 8 + nth (4 * q + 3) p 0)) by lia.
      rewrite F. lia.
    + assert (Em : m = (4 * q + 2)%nat) by lia. rewrite <- Em in *. rewrite N in *. rewrite Nat.eqb_refl.
      destruct (Nat.eqb_spec (4 * q) m); [lia|]. destruct (Nat.eqb_spec (4 * q + 1) m); [lia|]. destruct (Nat.eqb_spec (4 * q + 3) m); [lia|].
      change ((3 - 2) * 2 ^ 3) with 8.
      pose proof (lor_fill (nth (4 * q) p 0 * 2 ^ 8 + nth (4 * q + 1) p 0) (nth (4 * q + 3) p 0) x 8 ltac:(lia)) as F.
      change (2 ^ (8 + 8)) with (2 ^ 16) in F. specialize (F ltac:(lia) X).
      replace (nth (4 * q) p 0 * 2 ^ 24 + nth (4 * q + 1) p 0 * 2 ^ 16 + 0 * 2 ^ 8 + nth (4 * q + 3) p 0)
        with ((nth (4 * q) p 0 * 2 ^ 8 + nth (4 * q + 1) p 0) * 2 ^ 16 + nth (4 * q + 3) p 0) by lia.
      rewrite F. lia.
    + assert (Em : m = (4 * q + 3)%nat) by lia. rewrite <- Em in *. rewrite N in *. rewrite Nat.eqb_refl.
      destruct (Nat.eqb_spec (4 * q) m); [lia|]. destruct (Nat.eqb_spec (4 * q + 1) m); [lia|]. destruct (Nat.eqb_spec (4 * q + 2) m); [lia|].
      change ((3 - 3) * 2 ^ 3) with 0.
      pose proof (lor_fill (nth (4 * q) p 0 * 2 ^ 16 + nth (4 * q + 1) p 0 * 2 ^ 8 + nth (4 * q + 2) p 0) 0 x 0 ltac:(lia)) as F.
      change (2 ^ (0 + 8)) with (2 ^ 8) in F. specialize (F ltac:(lia) X).
      replace (nth (4 * q) p 0 * 2 ^ 24 + nth (4 * q + 1) p 0 * 2 ^ 16 + nth (4 * q + 2) p 0 * 2 ^ 8 + 0)
        with ((nth (4 * q) p 0 * 2 ^ 16 + nth (4 * q + 1) p 0 * 2 ^ 8 + nth (4 * q + 2) p 0) * 2 ^ 8 + 0) by lia.
      rewrite F. lia.
  - rewrite nth_error_upd_other by auto. rewrite H by exact I. do 2 f_equal. unfold word_at. rewrite !nth_upd by lia.
    destruct (Nat.eqb_spec (4 * i) m); [exfalso; apply Ni; subst m; rewrite Nat.mul_comm, Nat.div_mul; lia|].
    destruct (Nat.eqb_spec (4 * i + 1) m); [lia|]. destruct (Nat.eqb_spec (4 * i + 2) m); [lia|].
    destruct (Nat.eqb_spec (4 * i + 3) m); [lia|]. reflexivity.
Qed.
