(* Words, rounds and padding of the SHA-1 model. *)
From Coq Require Import Ascii.
From Verif Require Import Base Sha1Model Sha1Spec IndexProofs VecProofs.
Local Open Scope Z_scope.

Definition ok32 (x : Z) : Prop := 0 <= x < 2 ^ 32.

Lemma land_disjoint : forall a b k, 0 <= k -> 0 <= b < 2 ^ k -> Z.land (a * 2 ^ k) b = 0.
Proof.
  intros a b k K B. apply Z.bits_inj'. intros i I. rewrite Z.land_spec, Z.bits_0.
  destruct (Z.ltb_spec i k).
  - now rewrite Z.mul_pow2_bits_low by lia.
  - rewrite <- (Z.mod_small b (2 ^ k)) by lia. rewrite Z.mod_pow2_bits_high by lia. now rewrite andb_false_r.
Qed.
Lemma lor_sum : forall a b, Z.land a b = 0 -> Z.lor a b = a + b.
Proof. intros a b H. rewrite <- (Z.lxor_lor a b H). symmetry. now apply Z.add_nocarry_lxor. Qed.
Lemma lor_add : forall a b k, 0 <= k -> 0 <= b < 2 ^ k -> Z.lor (a * 2 ^ k) b = a * 2 ^ k + b.
Proof. intros. apply lor_sum. now apply land_disjoint. Qed.
(* a free byte is filled *)
Lemma lor_fill : forall hi lo x k, 0 <= k -> 0 <= lo < 2 ^ k -> 0 <= x < 256 ->
  Z.lor (hi * 2 ^ (k + 8) + lo) (x * 2 ^ k) = hi * 2 ^ (k + 8) + x * 2 ^ k + lo.
Proof.
  intros hi lo x k K L X. assert (P : 2 ^ (k + 8) = 2 ^ k * 256) by (rewrite Z.pow_add_r by lia; reflexivity).
  assert (0 < 2 ^ k) by (apply Z.pow_pos_nonneg; lia).
  rewrite lor_sum; [lia|]. rewrite <- lor_add by (rewrite ?P; nia). rewrite Z.land_lor_distr_l.
  rewrite land_disjoint by (rewrite ?P; nia). rewrite Z.land_comm, land_disjoint by lia. reflexivity.
Qed.

Lemma rol_shift : forall x s, ok32 x -> 0 < s < 32 ->
  rol x s = x mod 2 ^ (32 - s) * 2 ^ s + x / 2 ^ (32 - s) /\ ROTL s x = x mod 2 ^ (32 - s) * 2 ^ s + x / 2 ^ (32 - s).
Proof.
  intros x s X S. unfold rol, ROTL, u32, W32. change two32 with (2 ^ 32).
  assert (P : 2 ^ 32 = 2 ^ (32 - s) * 2 ^ s) by (rewrite <- Z.pow_add_r by lia; f_equal; lia).
  assert (P1 : 0 < 2 ^ s) by (apply Z.pow_pos_nonneg; lia).
  assert (P2 : 0 < 2 ^ (32 - s)) by (apply Z.pow_pos_nonneg; lia).
  assert (M : (x * 2 ^ s) mod 2 ^ 32 = x mod 2 ^ (32 - s) * 2 ^ s) by (rewrite P; apply Z.mul_mod_distr_r; lia).
  split; [|now rewrite M].
  rewrite Z.shiftl_mul_pow2, Z.shiftr_div_pow2 by lia. rewrite M. apply lor_add; [lia|].
  red in X. split; [apply Z.div_pos; lia|]. apply Z.div_lt_upper_bound; nia.
Qed.
Lemma rol_ok : forall x s, ok32 x -> 0 < s < 32 -> rol x s = ROTL s x /\ ok32 (ROTL s x).
Proof.
  intros x s X S. destruct (rol_shift x s X S) as (E1 & E2). split; [congruence|]. rewrite E2.
  assert (P : 2 ^ 32 = 2 ^ (32 - s) * 2 ^ s) by (rewrite <- Z.pow_add_r by lia; f_equal; lia).
  assert (P1 : 0 < 2 ^ s) by (apply Z.pow_pos_nonneg; lia).
  assert (P2 : 0 < 2 ^ (32 - s)) by (apply Z.pow_pos_nonneg; lia).
  pose proof (Z.mod_pos_bound x (2 ^ (32 - s)) P2). unfold ok32 in *. rewrite P in *.
  assert (0 <= x / 2 ^ (32 - s) < 2 ^ s).
  { split; [apply Z.div_pos; lia|]. apply Z.div_lt_upper_bound; lia. }
  nia.
Qed.

Lemma ok32_bits : forall x, (ok32 x -> forall i, 32 <= i -> Z.testbit x i = false) /\
  (0 <= x -> (forall i, 32 <= i -> Z.testbit x i = false) -> ok32 x).
Proof.
  intros x. split.
  - intros X i I. rewrite <- (Z.mod_small x (2 ^ 32)) by exact X. apply Z.mod_pow2_bits_high. lia.
  - intros P H. assert (E : x mod 2 ^ 32 = x).
    { apply Z.bits_inj'. intros i I. destruct (Z.ltb_spec i 32).
      - now apply Z.mod_pow2_bits_low.
      - rewrite Z.mod_pow2_bits_high by lia. symmetry. auto. }
    red. rewrite <- E. apply Z.mod_pos_bound. reflexivity.
Qed.
Lemma lxor_ok : forall a b, ok32 a -> ok32 b -> ok32 (Z.lxor a b).
Proof.
  intros a b A B. apply ok32_bits.
  - apply Z.lxor_nonneg. unfold ok32 in *. lia.
  - intros i I. rewrite Z.lxor_spec, (proj1 (ok32_bits a) A i I), (proj1 (ok32_bits b) B i I). reflexivity.
Qed.
Lemma not32_ok : forall x, ok32 x -> not32 x = compl x.
Proof.
  intros x X. unfold not32, u32, compl. change two32 with W32. unfold W32, Z.lnot, ok32 in *.
  symmetry. apply Z.mod_unique with (-1); lia.
Qed.
Lemma f_ch_ok : forall b c d, ok32 b -> f_ch b c d = Ch b c d.
Proof.
  intros b c d B. unfold f_ch, Ch. rewrite <- (not32_ok b B). symmetry. apply Z.lxor_lor.
  apply Z.bits_inj'. intros i I. rewrite !Z.land_spec, Z.bits_0. unfold not32, u32. change two32 with (2 ^ 32).
  destruct (Z.ltb_spec i 32).
  - rewrite Z.mod_pow2_bits_low, Z.lnot_spec by lia. destruct (Z.testbit b i), (Z.testbit c i); reflexivity.
  - rewrite Z.mod_pow2_bits_high by lia. now rewrite andb_false_r.
Qed.
Lemma f_maj_ok : forall b c d, f_maj b c d = Maj b c d.
Proof.
  intros. unfold f_maj, Maj. apply Z.bits_inj'. intros i I. rewrite !Z.lxor_spec, !Z.lor_spec, !Z.land_spec.
  destruct (Z.testbit b i), (Z.testbit c i), (Z.testbit d i); reflexivity.
Qed.

(* --- the message schedule ------------------------------------------------------ *)
Lemma extend_length : forall n w, length (extend n w) = (length w + n)%nat.
Proof. induction n; intros w; cbn; [lia|]. rewrite IHn, app_length. cbn. lia. Qed.
Lemma extend_old : forall n w i, (i < length w)%nat -> nth i (extend n w) 0 = nth i w 0.
Proof.
  induction n; intros w i L; cbn; auto. rewrite IHn by (rewrite app_length; cbn; lia). now apply app_nth1.
Qed.
Definition wt (w : list Z) (t : nat) : Z :=
  ROTL 1 (Z.lxor (Z.lxor (Z.lxor (nth (t - 3) w 0) (nth (t - 8) w 0)) (nth (t - 14) w 0)) (nth (t - 16) w 0)).
Lemma extend_new : forall n w t, (16 <= length w)%nat -> (length w <= t < length w + n)%nat ->
  nth t (extend n w) 0 = wt (extend n w) t.
Proof.
  induction n; intros w t L T; [lia|]. cbn [extend].
  destruct (Nat.eq_dec t (length w)) as [->|N].
  - rewrite extend_old by (rewrite app_length; cbn; lia). rewrite app_nth2, Nat.sub_diag by lia. cbn [nth].
    unfold next_word, wt. rewrite !extend_old by (rewrite app_length; cbn; lia). rewrite !app_nth1 by lia. reflexivity.
  - apply IHn; rewrite app_length; cbn; lia.
Qed.
Lemma block_words_nth : forall b i, (i < 16)%nat -> nth i (block_words b) 0 = word_at b i.
Proof.
  intros b i I. unfold block_words. rewrite (nth_indep _ _ (word_at b 0)) by (rewrite map_length, seq_length; exact I).
  rewrite (map_nth (word_at b)), seq_nth by exact I. reflexivity.
Qed.

Definition bytes_ok (b : list Z) : Prop := Forall (fun x => 0 <= x < 256) b.
Lemma byte_nth : forall b i, bytes_ok b -> 0 <= nth i b 0 < 256.
Proof.
  intros b i B. destruct (Nat.lt_ge_cases i (length b)).
  - red in B. rewrite Forall_forall in B. apply B. now apply nth_In.
  - rewrite nth_overflow by lia. lia.
Qed.
Lemma word_at_ok : forall b i, bytes_ok b -> ok32 (word_at b i).
Proof.
  intros b i B. unfold word_at, ok32.
  pose proof (byte_nth b (4 * i) B). pose proof (byte_nth b (4 * i + 1) B).
  pose proof (byte_nth b (4 * i + 2) B). pose proof (byte_nth b (4 * i + 3) B).
  change (2 ^ 24) with 16777216. change (2 ^ 16) with 65536. change (2 ^ 8) with 256. change (2 ^ 32) with 4294967296. lia.
Qed.
Lemma wt_ok : forall w t, (forall i, (i < t)%nat -> ok32 (nth i w 0)) -> (16 <= t)%nat -> ok32 (wt w t).
Proof.
  intros w t H T. unfold wt. apply rol_ok; [|lia]. repeat apply lxor_ok; apply H; lia.
Qed.
Lemma schedule_ok : forall b, bytes_ok b -> forall i, (i < 80)%nat -> ok32 (nth i (schedule (block_words b)) 0).
Proof.
  intros b B.
  assert (L : length (block_words b) = 16%nat) by reflexivity.
  assert (S0 : forall i, (i < 16)%nat -> nth i (schedule (block_words b)) 0 = word_at b i).
  { intros i I. unfold schedule. rewrite extend_old by lia. now rewrite block_words_nth by lia. }
  assert (S1 : forall i, (16 <= i < 80)%nat -> nth i (schedule (block_words b)) 0 = wt (schedule (block_words b)) i).
  { intros i I. unfold schedule. rewrite extend_new by lia. reflexivity. }
  generalize dependent (schedule (block_words b)). intros W S0 S1.
  induction i as [i IH] using (well_founded_induction lt_wf). intros I.
  destruct (Nat.lt_ge_cases i 16).
  - rewrite S0 by lia. now apply word_at_ok.
  - rewrite S1 by lia. apply wt_ok; [|lia]. intros j J. apply IH; lia.
Qed.


(* --- rounds -------------------------------------------------------------------- *)
Definition regs_ok (r : Z * Z * Z * Z * Z) : Prop :=
  let '(a, b, c, d, e) := r in ok32 a /\ ok32 b /\ ok32 c /\ ok32 d /\ ok32 e.
Lemma mod_ok : forall x, ok32 (x mod W32).
Proof. intros. apply Z.mod_pos_bound. reflexivity. Qed.
Lemma round_ok : forall w r t, regs_ok r -> regs_ok (round w r t).
Proof.
  intros w [[[[a b] c] d] e] t (A & B & C & D & E). cbn. repeat split; try apply mod_ok; try apply A; try apply C; try apply D.
  - apply (rol_ok b 30 B); lia.
  - apply (rol_ok b 30 B); lia.
Qed.
Definition agree (w : wbuf) (W : list Z) (t : nat) : Prop :=
  length w = 80%nat /\ forall i, (i < t)%nat -> nth_error w i = Some (Some (nth i W 0)).
Lemma rdw_ok : forall w W t i, agree w W t -> (i < t)%nat -> rdw w i = Ok (nth i W 0).
Proof. intros w W t i (_ & H) I. unfold rdw. now rewrite (H i I). Qed.
Definition is_phase (func : Z -> Z -> Z -> Z) (val : Z) (l : list nat) : Prop :=
  forall t, In t l -> val = Kt t /\ forall b c d, ok32 b -> func b c d = ft t b c d.
Lemma macro_ok : forall func val w W r t T, agree w W T -> (t < T)%nat -> regs_ok r ->
  val = Kt t -> (forall b c d, ok32 b -> func b c d = ft t b c d) ->
  sha1macro func val w r t = Ok (round W r t).
Proof.
  intros func val w W [[[[a b] c] d] e] t T G L (A & B & _) V F. unfold sha1macro. rewrite (rdw_ok w W T t G L). cbn [obind].
  unfold round, u32. change two32 with W32. rewrite (proj1 (rol_ok a 5 A ltac:(lia))), (proj1 (rol_ok b 30 B ltac:(lia))).
  rewrite F by exact B. now rewrite V.
Qed.
Lemma fold_round_ok : forall w l r, regs_ok r -> regs_ok (fold_left (round w) l r).
Proof. induction l; intros r R; cbn; auto. apply IHl. now apply round_ok. Qed.
Lemma first_rounds : forall func val w W T n t r, agree w W T -> (t + n <= T)%nat -> regs_ok r ->
  is_phase func val (seq t n) ->
  ofold (fun r t => sha1macro func val w r t) (seq t n) r = Ok (fold_left (round W) (seq t n) r).
Proof.
  induction n; intros t r G L R P; cbn [seq ofold fold_left]; auto.
  destruct (P t (or_introl eq_refl)) as (V & F).
  rewrite (macro_ok func val w W r t T G ltac:(lia) R V F). cbn [obind].
  apply IHn; [exact G|lia|now apply round_ok|]. intros x X. apply P. now right.
Qed.
Lemma later_rounds : forall func val W n t w r, agree w W t -> (16 <= t)%nat -> (t + n <= 80)%nat -> regs_ok r ->
  (forall i, (i < 80)%nat -> ok32 (nth i W 0)) ->
  (forall i, (16 <= i < 80)%nat -> nth i W 0 = wt W i) ->
  is_phase func val (seq t n) ->
  exists w', rounds func val (seq t n) (w, r) = Ok (w', fold_left (round W) (seq t n) r) /\ agree w' W (t + n).
Proof.
  intros func val W. unfold rounds. induction n; intros t w r G T L R O SS P.
  - exists w. cbn. rewrite Nat.add_0_r. auto.
  - cbn [seq ofold fold_left]. rewrite !(rdw_ok w W t) by (auto; lia). cbn [obind].
    assert (X : rol (Z.lxor (Z.lxor (Z.lxor (nth (t - 3) W 0) (nth (t - 8) W 0)) (nth (t - 14) W 0)) (nth (t - 16) W 0)) 1 = nth t W 0).
    { rewrite (SS t) by lia. unfold wt. apply rol_ok; [|lia]. repeat apply lxor_ok; apply O; lia. }
    rewrite X. destruct G as (GL & GN).
    assert (E : oset w t (Some (nth t W 0)) = Ok (upd w t (Some (nth t W 0)))).
    { apply oset_Ok. split; [lia|reflexivity]. }
    rewrite E. cbn [obind].
    assert (G' : agree (upd w t (Some (nth t W 0))) W (t + 1)).
    { split; [now rewrite upd_length|]. intros i I. destruct (Nat.eq_dec i t) as [->|N].
      - rewrite nth_error_upd_same; [auto|lia].
      - rewrite nth_error_upd_other by auto. apply GN. lia. }
    destruct (P t (or_introl eq_refl)) as (V & F).
    rewrite (macro_ok func val _ W r t (t + 1) G' ltac:(lia) R V F). cbn [obind].
    replace (t + S n)%nat with (S t + n)%nat by lia. apply IHn; auto; try lia.
    + now replace (S t) with (t + 1)%nat by lia.
    + now apply round_ok.
    + intros x Hx. apply P. now right.
Qed.
