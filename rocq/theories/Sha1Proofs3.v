(* The last block, the digest in hexadecimal, and the whole computation. *)
From Coq Require Import Ascii.
From Verif Require Import Base Sha1Model Sha1Spec IndexProofs VecProofs Sha1Proofs Sha1Proofs2.
Local Open Scope Z_scope.

Definition partial (rest : list Z) (j : nat) : list Z := firstn j rest ++ repeat 0 (64 - j).
Lemma partial_length : forall rest j, (j <= length rest)%nat -> (j <= 64)%nat -> length (partial rest j) = 64%nat.
Proof. intros. unfold partial. rewrite app_length, firstn_length, repeat_length. lia. Qed.
Lemma repeat_ok : forall n, bytes_ok (repeat 0 n).
Proof. intros n. induction n; constructor; auto; lia. Qed.
Lemma partial_ok : forall rest j, bytes_ok rest -> bytes_ok (partial rest j).
Proof. intros rest j B. apply Forall_app. split; [now apply bytes_first|apply repeat_ok]. Qed.
Lemma partial_upd : forall rest j x, (j <= length rest)%nat -> (j < 64)%nat ->
  upd (partial rest j) j x = firstn j rest ++ x :: repeat 0 (63 - j).
Proof.
  intros rest j x J K. unfold partial. rewrite upd_app_r by (rewrite firstn_length; lia).
  rewrite firstn_length. replace (j - Nat.min j (length rest))%nat with 0%nat by lia.
  replace (64 - j)%nat with (S (63 - j)) by lia. reflexivity.
Qed.
Lemma partial_zero : forall rest j, (j <= length rest)%nat -> (j < 64)%nat -> nth j (partial rest j) 0 = 0.
Proof.
  intros rest j J K. unfold partial. rewrite app_nth2 by (rewrite firstn_length; lia). apply nth_repeat.
Qed.
Lemma partial_next : forall rest j, (j < length rest)%nat -> (j < 64)%nat ->
  upd (partial rest j) j (nth j rest 0) = partial rest (S j).
Proof.
  intros rest j J K. rewrite partial_upd by lia. unfold partial.
  replace (64 - S j)%nat with (63 - j)%nat by lia.
  replace (firstn (S j) rest) with (firstn j rest ++ [nth j rest 0]); [now rewrite <- app_assoc|].
  rewrite <- (firstn_skipn j rest) at 3. destruct (skipn j rest) as [|x t] eqn:E.
  - apply (f_equal (@length _)) in E. rewrite skipn_length in E. cbn in E. lia.
  - assert (N : nth j rest 0 = x).
    { rewrite <- (firstn_skipn j rest), E, app_nth2 by (rewrite firstn_length; lia).
      rewrite firstn_length. now replace (j - Nat.min j (length rest))%nat with 0%nat by lia. }
    rewrite N. rewrite firstn_app, firstn_length. rewrite firstn_firstn.
    replace (Nat.min (S j) j) with j by lia. replace (S j - Nat.min j (length rest))%nat with 1%nat by lia. reflexivity.
Qed.
Lemma last_loop : forall u rest n j w, (j + n = length rest)%nat -> (length rest < 64)%nat -> bytes_ok rest ->
  holds w (partial rest j) ->
  exists w', ofold (fun w i => b <- oget (u ++ rest) (i + length u) ;; or_byte w i b) (seq j n) w = Ok w' /\
    holds w' (partial rest (length rest)).
Proof.
  intros u rest. induction n; intros j w E L B H; cbn [seq ofold].
  - exists w. split; auto. now replace (length rest) with j by lia.
  - assert (G : oget (u ++ rest) (j + length u) = Ok (nth j rest 0)).
    { rewrite nth_of_error by (rewrite app_length; lia). rewrite app_nth2 by lia. do 2 f_equal. lia. }
    rewrite G. cbn [obind].
    destruct (or_byte_ok w (partial rest j) j (nth j rest 0) H) as (w1 & E1 & H1); try lia.
    { apply partial_length; lia. } { now apply partial_ok. } { apply partial_zero; lia. } { now apply byte_nth. }
    rewrite E1. cbn [obind]. rewrite partial_next in H1 by lia. apply IHn; auto; lia.
Qed.

(* the length in the last 8 bytes *)
Lemma be64_low : forall x, 0 <= x < 2 ^ 32 ->
  be64 x = [0; 0; 0; 0; x / 2 ^ 24; x / 2 ^ 16 mod 256; x / 2 ^ 8 mod 256; x mod 256] /\ 0 <= x / 2 ^ 24 < 256.
Proof.
  intros x X. assert (B : 0 <= x / 2 ^ 24 < 256) by (split; [apply Z.div_pos; lia|apply Z.div_lt_upper_bound; lia]).
  split; [|exact B]. unfold be64. cbn [map Z.mul Pos.mul].
  assert (Z0 : forall k, 32 <= k -> x / 2 ^ k mod 256 = 0).
  { intros k K. rewrite Z.div_small; [reflexivity|]. split; [lia|]. eapply Z.lt_le_trans; [apply X|]. apply Z.pow_le_mono_r; lia. }
  rewrite !Z0 by lia. rewrite (Z.mod_small (x / 2 ^ 24)) by exact B. change (2 ^ 0) with 1. now rewrite Z.div_1_r.
Qed.
Lemma be64_word : forall x, 0 <= x < 2 ^ 32 ->
  x / 2 ^ 24 * 2 ^ 24 + x / 2 ^ 16 mod 256 * 2 ^ 16 + x / 2 ^ 8 mod 256 * 2 ^ 8 + x mod 256 = x.
Proof.
  intros x X. change (2 ^ 24) with (2 ^ 8 * 2 ^ 8 * 2 ^ 8). change (2 ^ 16) with (2 ^ 8 * 2 ^ 8).
  rewrite <- !Z.div_div by lia. change (2 ^ 8) with 256.
  pose proof (Z.div_mod x 256 ltac:(lia)). pose proof (Z.div_mod (x / 256) 256 ltac:(lia)).
  pose proof (Z.div_mod (x / 256 / 256) 256 ltac:(lia)). lia.
Qed.
Lemma be64_bytes : forall x, bytes_ok (be64 x).
Proof. intros x. unfold be64. apply Forall_forall. intros y Y. apply in_map_iff in Y. destruct Y as (i & <- & _). apply Z.mod_pos_bound. lia. Qed.
Lemma length_word : forall p x w, length p = 56%nat -> 0 <= x < 2 ^ 32 -> holds w (p ++ repeat 0 8) ->
  exists w', oset w 15 (Some x) = Ok w' /\ holds w' (p ++ be64 x).
Proof.
  intros p x w L X (Lw & H). unfold oset. destruct (Nat.ltb_spec 15 (length w)); [|lia]. eexists. split; [reflexivity|].
  split; [now rewrite upd_length|]. intros i I. destruct (be64_low x X) as (E & _).
  destruct (Nat.eq_dec i 15) as [->|N].
  - rewrite nth_error_upd_same by lia. do 2 f_equal. unfold word_at. rewrite !app_nth2 by lia. rewrite L, E.
    symmetry. exact (be64_word x X).
  - rewrite nth_error_upd_other by auto. rewrite H by exact I. do 2 f_equal. unfold word_at.
    assert (NE : forall j, (j < 60)%nat -> nth j (p ++ repeat 0 8) 0 = nth j (p ++ be64 x) 0).
    { intros j J. destruct (Nat.lt_ge_cases j 56); [now rewrite !app_nth1 by lia|]. rewrite !app_nth2 by lia. rewrite E, L.
      assert (j - 56 < 4)%nat by lia. destruct (j - 56)%nat as [|[|[|[|?]]]]; try reflexivity. lia. }
    now rewrite !NE by lia.
Qed.

(* --- hexadecimal ---------------------------------------------------------------- *)
Lemma down_loop : forall (F : nat -> outcome Z) (g : nat -> Z) d m t, (forall i, (i < m)%nat -> F i = Ok (g i)) ->
  ofold (fun h i => r <- F i ;; oset h i r) (rev (seq 0 m)) (repeat d m ++ t) = Ok (map g (seq 0 m) ++ t).
Proof.
  induction m; intros t H; [reflexivity|]. rewrite seq_S, rev_app_distr. cbn [rev app ofold Nat.add].
  rewrite H by lia. cbn [obind]. unfold oset. rewrite app_length, repeat_length.
  destruct (Nat.ltb_spec m (S m + length t)); [|lia]. cbn [obind].
  replace (upd (repeat d (S m) ++ t) m (g m)) with (repeat d m ++ g m :: t).
  - rewrite IHm by (intros; apply H; lia). now rewrite map_app, <- app_assoc.
  - replace (repeat d (S m)) with (repeat d m ++ [d]) by (rewrite <- repeat_cons; reflexivity).
    rewrite <- app_assoc. rewrite upd_app_r by (rewrite repeat_length; lia). rewrite repeat_length, Nat.sub_diag. reflexivity.
Qed.
Lemma down_loop2 : forall (B : nat -> outcome Z) (D : Z -> outcome ascii) (D' : Z -> outcome ascii) (b : nat -> Z) (g1 g2 : nat -> ascii) d m t,
  (forall i, (i < m)%nat -> B i = Ok (b i)) -> (forall i, (i < m)%nat -> D (b i) = Ok (g1 i)) -> (forall i, (i < m)%nat -> D' (b i) = Ok (g2 i)) ->
  ofold (fun hex i => b <- B i ;; d1 <- D b ;; hex <- oset hex (2 * i) d1 ;; d2 <- D' b ;; oset hex (2 * i + 1) d2)
    (rev (seq 0 m)) (repeat d (2 * m) ++ t) = Ok (concat (map (fun i => [g1 i; g2 i]) (seq 0 m)) ++ t).
Proof.
  intros B D D' b g1 g2 d. induction m; intros t H1 H2 H3; [reflexivity|]. rewrite seq_S, rev_app_distr. cbn [rev app ofold Nat.add].
  rewrite H1 by lia. cbn [obind]. rewrite H2 by lia. cbn [obind].
  replace (2 * S m)%nat with (2 * m + 2)%nat by lia. rewrite repeat_app. cbn [repeat]. rewrite <- app_assoc. cbn [app].
  unfold oset at 1. rewrite app_length, repeat_length. cbn [length].
  destruct (Nat.ltb_spec (2 * m) (2 * m + S (S (length t)))); [|lia]. cbn [obind].
  rewrite upd_app_r by (rewrite repeat_length; lia). rewrite repeat_length, Nat.sub_diag. cbn [upd].
  rewrite H3 by lia. cbn [obind]. unfold oset at 1. rewrite app_length, repeat_length. cbn [length].
  destruct (Nat.ltb_spec (2 * m + 1) (2 * m + S (S (length t)))); [|lia]. cbn [obind].
  rewrite upd_app_r by (rewrite repeat_length; lia). rewrite repeat_length. replace (2 * m + 1 - 2 * m)%nat with 1%nat by lia. cbn [upd].
  rewrite IHm by (intros; auto). rewrite map_app, concat_app, <- app_assoc. reflexivity.
Qed.
Lemma digit_ok : forall x, oget hex_digits (Z.to_nat (Z.land x 15)) = Ok (nth (Z.to_nat (x mod 16)) hex_digits "?"%char).
Proof.
  intros x. change 15 with (Z.ones 4). rewrite Z.land_ones by lia. change (2 ^ 4) with 16.
  apply oget_Ok. apply nth_error_nth'. pose proof (Z.mod_pos_bound x 16 ltac:(lia)). cbn [length hex_digits]. lia.
Qed.
Definition byte_of (result : list Z) (i : nat) : Z :=
  Z.land (Z.shiftr (nth (i / 4) result 0) (Z.shiftl (Z.land (3 - Z.of_nat i) 3) 3)) 255.
Lemma hex_shape : forall h0 h1 h2 h3 h4, let r := [h0; h1; h2; h3; h4] in
  hex_hash r = Ok (concat (map (fun i => [nth (Z.to_nat (Z.shiftr (byte_of r i) 4 mod 16)) hex_digits "?"%char;
                                          nth (Z.to_nat (byte_of r i mod 16)) hex_digits "?"%char]) (seq 0 20))).
Proof.
  intros h0 h1 h2 h3 h4 r. unfold hex_hash.
  assert (A : ofold (fun h i => r0 <- oget r (i / 4) ;; oset h i (Z.land (Z.shiftr r0 (Z.shiftl (Z.land (3 - Z.of_nat i) 3) 3)) 255))
    (rev (seq 0 20)) (repeat 0 20) = Ok (map (byte_of r) (seq 0 20))).
  { pose proof (down_loop (fun i => r0 <- oget r (i / 4) ;; Ok (Z.land (Z.shiftr r0 (Z.shiftl (Z.land (3 - Z.of_nat i) 3) 3)) 255)) (byte_of r) 0 20 []) as D.
    rewrite !app_nil_r in D. rewrite <- D.
    - clear. generalize (rev (seq 0 20)) (repeat 0 20). induction l; intros h; cbn [ofold]; auto.
      destruct (oget r (a / 4)); cbn [obind]; auto. destruct (oset _ _ _); cbn [obind]; auto.
    - intros i I. rewrite nth_of_error; [reflexivity|]. apply Nat.div_lt_upper_bound; cbn; lia. }
  rewrite A. cbn [obind]. clear A. set (hash := map (byte_of r) (seq 0 20)).
  pose proof (down_loop2 (oget hash) (fun b => oget hex_digits (Z.to_nat (Z.land (Z.shiftr b 4) 15)))
    (fun b => oget hex_digits (Z.to_nat (Z.land b 15))) (byte_of r)
    (fun i => nth (Z.to_nat (Z.shiftr (byte_of r i) 4 mod 16)) hex_digits "?"%char)
    (fun i => nth (Z.to_nat (byte_of r i mod 16)) hex_digits "?"%char) "000"%char 20 []) as D.
  rewrite !app_nil_r in D. apply D.
  - intros i I. unfold hash. rewrite nth_of_error by (rewrite map_length, seq_length; exact I).
    rewrite (nth_indep _ _ (byte_of r 0)) by (rewrite map_length, seq_length; exact I). rewrite map_nth, seq_nth by exact I. reflexivity.
  - intros. apply digit_ok.
  - intros. apply digit_ok.
Qed.
Lemma nibble_hi : forall h j, 0 <= h -> 0 <= j -> Z.shiftr (Z.land (Z.shiftr h (8 * j)) 255) 4 mod 16 = h / 16 ^ (2 * j + 1) mod 16.
Proof.
  intros h j H J. change 255 with (Z.ones 8). rewrite Z.land_ones, !Z.shiftr_div_pow2 by lia.
  replace (16 ^ (2 * j + 1)) with (2 ^ (8 * j) * 2 ^ 4) by (change 16 with (2 ^ 4); rewrite <- Z.pow_mul_r, <- Z.pow_add_r by lia; f_equal; lia).
  rewrite <- Z.div_div by (try apply Z.pow_nonzero; try apply Z.pow_pos_nonneg; lia).
  generalize (h / 2 ^ (8 * j)). intros x. change (2 ^ 8) with (16 * 16). change (2 ^ 4) with 16.
  rewrite Z.rem_mul_r by lia. rewrite (Z.mul_comm 16), Z.div_add by lia.
  rewrite (Z.div_small (x mod 16)) by (apply Z.mod_pos_bound; lia). rewrite Z.add_0_l. apply Z.mod_mod. lia.
Qed.
Lemma nibble_lo : forall h j, 0 <= h -> 0 <= j -> Z.land (Z.shiftr h (8 * j)) 255 mod 16 = h / 16 ^ (2 * j) mod 16.
Proof.
  intros h j H J. change 255 with (Z.ones 8). rewrite Z.land_ones, !Z.shiftr_div_pow2 by lia.
  replace (16 ^ (2 * j)) with (2 ^ (8 * j)) by (change 16 with (2 ^ 4); rewrite <- Z.pow_mul_r by lia; f_equal; lia).
  generalize (h / 2 ^ (8 * j)). intros x. change (2 ^ 8) with (16 * 16).
  rewrite Z.rem_mul_r by lia. rewrite (Z.mul_comm 16), Z.mod_add by lia. apply Z.mod_mod. lia.
Qed.
Lemma hex_ok : forall h0 h1 h2 h3 h4, regs_ok (h0, h1, h2, h3, h4) ->
  hex_hash [h0; h1; h2; h3; h4] = Ok (hex_digest (h0, h1, h2, h3, h4)).
Proof.
  intros h0 h1 h2 h3 h4 (A & B & C & D & E). rewrite hex_shape. f_equal. unfold hex_digest, hex_word.
  cbn [seq map concat app]. unfold byte_of.
  assert (S : forall i, Z.shiftl (Z.land (3 - Z.of_nat i) 3) 3 = 8 * ((3 - Z.of_nat i) mod 4)).
  { intros i. rewrite Z.shiftl_mul_pow2 by lia. change 3 with (Z.ones 2) at 2. rewrite Z.land_ones by lia. change (2 ^ 2) with 4. change (2 ^ 3) with 8. lia. }
  rewrite !S. unfold ok32 in *.
  rewrite !nibble_hi, !nibble_lo by (try apply Z.mod_pos_bound; cbn; lia).
  reflexivity.
Qed.

(* --- the whole computation ------------------------------------------------------- *)
Lemma blocks_app : forall q n a b, length a = (64 * q)%nat -> blocks (q + n) (a ++ b) = blocks q a ++ blocks n b.
Proof.
  induction q; intros n a b L.
  - destruct a; [reflexivity|cbn in L; lia].
  - cbn [Nat.add blocks app]. rewrite firstn_app, skipn_app. replace (64 - length a)%nat with 0%nat by lia.
    rewrite firstn_O, skipn_O, app_nil_r. f_equal. apply IHq. rewrite skipn_length. lia.
Qed.
Lemma blocks_firstn : forall q a r, length a = (64 * q)%nat -> blocks q (a ++ r) = blocks q a.
Proof. intros q a r L. pose proof (blocks_app q 0 a r L) as H. rewrite Nat.add_0_r in H. rewrite H. cbn. apply app_nil_r. Qed.
Lemma H0_ok : regs_ok H0.
Proof. repeat split; cbn; lia. Qed.
Lemma blocks_one : forall a b, length a = 64%nat -> blocks 1 (a ++ b) = [a].
Proof.
  intros a b L. cbn [blocks]. rewrite firstn_app, L, Nat.sub_diag, firstn_O, app_nil_r. rewrite firstn_all2 by lia. reflexivity.
Qed.
Lemma blocks_two : forall a b, length a = 64%nat -> length b = 64%nat -> blocks 2 (a ++ b) = [a; b].
Proof.
  intros a b La Lb. transitivity (blocks 1 (a ++ []) ++ blocks 1 (b ++ [])).
  - rewrite !app_nil_r. exact (blocks_app 1 1 a b La).
  - now rewrite !blocks_one.
Qed.
Lemma calc_ok : forall s k, bytes_ok s -> Z.of_nat (length s) * 8 < 2 ^ 32 -> padding s k ->
  calc s = Ok (hex_digest (digest_words (padded s k))).
Proof.
  intros s k B L (K1 & K2). set (q := (length s / 64)%nat).
  pose proof (Nat.div_mod (length s) 64 ltac:(lia)) as DM. pose proof (Nat.mod_upper_bound (length s) 64 ltac:(lia)) as MB. fold q in DM.
  destruct (full_ok q (length s) [] s H0 (repeat None 80)) as (w1 & E1 & L1 & R1); auto.
  { lia. } { lia. } { apply H0_ok. }
  unfold calc. change (full_blocks (length s) s 0 (0x67452301, 0xefcdab89, 0x98badcfe, 0x10325476, 0xc3d2e1f0) (repeat None 80))
    with (full_blocks (length s) ([] ++ s) (length (@nil Z)) H0 (repeat None 80)).
  rewrite E1. cbn [obind length Nat.add]. clear E1.
  set (a := firstn (64 * q) s). set (r := skipn (64 * q) s).
  assert (Es : s = a ++ r) by (symmetry; apply firstn_skipn).
  assert (La : length a = (64 * q)%nat) by (unfold a; rewrite firstn_length; lia).
  assert (Lr : length r = (length s mod 64)%nat) by (unfold r; rewrite skipn_length; lia).
  assert (Br : bytes_ok r) by now apply bytes_skip.
  assert (EB : blocks q s = blocks q a) by (rewrite Es; now apply blocks_firstn).
  rewrite EB in *. set (h := fold_left compress (blocks q a) H0) in *.
  destruct (clear_ok w1 L1) as (w2 & E2 & P2). rewrite E2. cbn [obind]. clear E2.
  replace (length s - 64 * q)%nat with (length r) by lia.
  assert (LP : exists w', ofold (fun w i => b <- oget s (i + 64 * q) ;; or_byte w i b) (seq 0 (length r)) w2 = Ok w' /\
     holds w' (partial r (length r))).
  { pose proof (last_loop a r (length r) 0 w2 ltac:(lia) ltac:(lia) Br P2) as X. rewrite <- Es, La in X. exact X. }
  destruct LP as (w3 & E3 & P3). rewrite E3. cbn [obind]. clear E3.
  destruct (or_byte_ok w3 (partial r (length r)) (length r) 0x80 P3) as (w4 & E4 & P4); try lia.
  { apply partial_length; lia. } { now apply partial_ok. } { apply partial_zero; lia. }
  rewrite E4. cbn [obind]. clear E4. rewrite partial_upd in P4 by lia. rewrite firstn_all in P4.
  set (X := Z.of_nat (length s) * 8) in *. assert (HX : 0 <= X < 2 ^ 32) by lia.
  assert (EX : 8 * Z.of_nat (length s) = X) by lia.
  assert (BT : forall n, bytes_ok (r ++ 0x80 :: repeat 0 n)).
  { intros n. apply Forall_app. split; [exact Br|]. constructor; [lia|apply repeat_ok]. }
  change (if X <? two32 then Ok X else UB) with (if X <? 2 ^ 32 then Ok X else UB).
  destruct (Z.ltb_spec X (2 ^ 32)) as [_|]; [|lia]. cbn [obind].
  assert (FIN : forall hh w p, regs_ok hh -> bytes_ok p -> length p = 56%nat -> holds w (p ++ repeat 0 8) ->
    (w <- oset w 15 (Some X) ;; '(result, w) <- inner_hash hh w ;;
     let '(h0, h1, h2, h3, h4) := result in hex_hash [h0; h1; h2; h3; h4]) = Ok (hex_digest (compress hh (p ++ be64 X)))).
  { intros hh w p Rh Bp Lp Hp. destruct (length_word p X w Lp HX Hp) as (w5 & E5 & P5). rewrite E5. cbn [obind].
    destruct (inner_ok hh w5 (p ++ be64 X) Rh) as (w6 & E6 & _ & R6); auto.
    { apply Forall_app. split; [exact Bp|apply be64_bytes]. }
    rewrite E6. cbn [obind]. destruct (compress hh (p ++ be64 X)) as [[[[x0 x1] x2] x3] x4]. now apply hex_ok. }
  destruct (Nat.leb_spec 56 (length r)) as [G|G].
  - (* two more blocks *)
    assert (k = 119 - length r)%nat as ->.
    { assert (A : ((length s + 1 + (119 - length r)) mod 64 = 56)%nat).
      { rewrite DM, <- Lr. replace (64 * q + length r + 1 + (119 - length r))%nat with (56 + (q + 1) * 64)%nat by lia.
        rewrite Nat.mod_add by lia. reflexivity. }
      pose proof (K2 _ A). rewrite DM, <- Lr in K1.
      replace (64 * q + length r + 1 + k)%nat with (length r + 1 + k + q * 64)%nat in K1 by lia. rewrite Nat.mod_add in K1 by lia.
      pose proof (Nat.div_mod (length r + 1 + k) 64 ltac:(lia)) as DK.
      set (d := ((length r + 1 + k) / 64)%nat) in *. rewrite K1 in DK.
      assert (d <> 0)%nat by (intros ->; lia). assert (d < 2)%nat by lia. lia. }
    destruct (inner_ok h w4 (r ++ 0x80 :: repeat 0 (63 - length r)) R1 (BT _) P4) as (w5 & E5 & L5 & R5).
    rewrite E5. cbn [obind]. destruct (clear_ok w5 L5) as (w6 & E6 & P6). rewrite E6. cbn [obind].
    change (repeat 0 64) with (repeat 0 56 ++ repeat 0 8) in P6.
    rewrite (FIN _ w6 (repeat 0 56) R5 (repeat_ok _) (repeat_length _ _) P6). f_equal. f_equal.
    unfold digest_words, padded. rewrite EX.
    assert (EQ : s ++ [0x80] ++ repeat 0 (119 - length r) ++ be64 X =
                 a ++ (r ++ 0x80 :: repeat 0 (63 - length r)) ++ (repeat 0 56 ++ be64 X)).
    { rewrite Es at 1. rewrite <- !app_assoc. f_equal. f_equal. cbn [app]. f_equal. rewrite app_assoc, <- repeat_app. do 2 f_equal. lia. }
    rewrite EQ. assert (LB : length (r ++ 0x80 :: repeat 0 (63 - length r)) = 64%nat).
    { rewrite app_length. cbn [length]. rewrite repeat_length. lia. }
    assert (NB : (length (a ++ (r ++ 0x80%Z :: repeat 0%Z (63 - length r)) ++ repeat 0%Z 56 ++ be64 X) / 64 = q + 2)%nat).
    { rewrite app_length, (app_length (r ++ _)), LB, La, app_length, repeat_length. cbn [be64 map length].
      replace (64 * q + (64 + (56 + 8)))%nat with ((q + 2) * 64)%nat by lia. apply Nat.div_mul. lia. }
    rewrite NB, (blocks_app q 2 a _ La). rewrite fold_left_app. fold h.
    rewrite (blocks_two _ _ LB) by (rewrite app_length, repeat_length; reflexivity). reflexivity.
  - assert (k = 55 - length r)%nat as ->.
    { assert (A : ((length s + 1 + (55 - length r)) mod 64 = 56)%nat).
      { rewrite DM, <- Lr. replace (64 * q + length r + 1 + (55 - length r))%nat with (56 + q * 64)%nat by lia.
        rewrite Nat.mod_add by lia. reflexivity. }
      pose proof (K2 _ A). rewrite DM, <- Lr in K1.
      replace (64 * q + length r + 1 + k)%nat with (length r + 1 + k + q * 64)%nat in K1 by lia. rewrite Nat.mod_add in K1 by lia.
      rewrite Nat.mod_small in K1 by lia. lia. }
    cbn [obind]. rewrite (FIN h w4 (r ++ 0x80 :: repeat 0 (55 - length r)) R1 (BT _)).
    + f_equal. f_equal. unfold digest_words, padded. rewrite EX.
      assert (EQ : s ++ [0x80] ++ repeat 0 (55 - length r) ++ be64 X = a ++ ((r ++ 0x80 :: repeat 0 (55 - length r)) ++ be64 X)).
      { rewrite Es at 1. rewrite <- !app_assoc. reflexivity. }
      rewrite EQ.
      assert (LB : length ((r ++ 0x80 :: repeat 0 (55 - length r)) ++ be64 X) = 64%nat).
      { rewrite !app_length. cbn [length be64 map]. rewrite repeat_length. lia. }
      assert (NB : (length (a ++ (r ++ 0x80%Z :: repeat 0%Z (55 - length r)) ++ be64 X) / 64 = q + 1)%nat).
      { rewrite app_length, LB, La. replace (64 * q + 64)%nat with ((q + 1) * 64)%nat by lia. apply Nat.div_mul. lia. }
      rewrite NB, (blocks_app q 1 a _ La), fold_left_app. fold h.
      rewrite <- (app_nil_r ((r ++ 0x80 :: repeat 0 (55 - length r)) ++ be64 X)). rewrite (blocks_one _ [] LB).
      rewrite !app_nil_r. reflexivity.
    + rewrite app_length. cbn [length]. rewrite repeat_length. lia.
    + replace ((r ++ 0x80 :: repeat 0 (55 - length r)) ++ repeat 0 8) with (r ++ 0x80 :: repeat 0 (63 - length r)); [exact P4|].
      rewrite <- app_assoc. cbn [app]. rewrite <- repeat_app. do 3 f_equal. lia.
Qed.
Lemma byte_range : forall c, 0 <= byte c < 256.
Proof. intros c. unfold byte. pose proof (N_ascii_bounded c). lia. Qed.
Lemma map_byte_ok : forall s, bytes_ok (map byte s).
Proof. induction s; constructor; auto. apply byte_range. Qed.
Lemma padding_exists : forall s, exists k, padding s k.
Proof.
  intros s. pose proof (Nat.div_mod (length s) 64 ltac:(lia)) as DM. pose proof (Nat.mod_upper_bound (length s) 64 ltac:(lia)) as MB.
  set (q := (length s / 64)%nat) in *. set (n := (length s mod 64)%nat) in *.
  assert (R : forall k, ((length s + 1 + k) mod 64 = (n + 1 + k) mod 64)%nat).
  { intros k. rewrite DM. replace (64 * q + n + 1 + k)%nat with (n + 1 + k + q * 64)%nat by lia. apply Nat.mod_add. lia. }
  destruct (Nat.lt_ge_cases n 56).
  - exists (55 - n)%nat. split.
    + rewrite R. replace (n + 1 + (55 - n))%nat with 56%nat by lia. reflexivity.
    + intros j J. rewrite R in J. destruct (Nat.lt_ge_cases (n + 1 + j) 64); [rewrite Nat.mod_small in J by lia; lia|lia].
  - exists (119 - n)%nat. split.
    + rewrite R. replace (n + 1 + (119 - n))%nat with (56 + 1 * 64)%nat by lia. rewrite Nat.mod_add by lia. reflexivity.
    + intros j J. rewrite R in J. pose proof (Nat.div_mod (n + 1 + j) 64 ltac:(lia)) as D. rewrite J in D.
      assert ((n + 1 + j) / 64 <> 0)%nat by (intros Q; rewrite Q in D; lia). lia.
Qed.
Lemma hash_concat : forall args s, hash_ s args = calc (map byte (s ++ concat (map (fun a => fst a ++ snd a) args))).
Proof.
  induction args as [|[ty t] args IH]; intros s; cbn [hash_ map concat fst snd].
  - now rewrite app_nil_r.
  - rewrite IH, <- !app_assoc. reflexivity.
Qed.
