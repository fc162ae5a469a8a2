From Verif Require Import Base IndexModel IndexSpec.
From Coq Require Import ZifyBool.

(* ------------------------------------------------------------------ ranges *)
Section Ranges.
Local Open Scope Z_scope.

Lemma to_signed64_small x : 0 <= x < two63 -> to_signed64 x = x.
Proof. unfold to_signed64; intros H; destruct (Z.ltb_spec x two63); lia. Qed.

Lemma signed64_ok x : - two63 <= x < two63 -> signed64 x = Ok x.
Proof.
  unfold signed64; intros H.
  destruct (Z.leb_spec (- two63) x); destruct (Z.ltb_spec x two63); try lia; reflexivity.
Qed.

Lemma wrap64_small x : 0 <= x < two64 -> wrap64 x = x.
Proof. intros; apply Z.mod_small; assumption. Qed.

Lemma nth_error_range_values r k :
  nth_error (range_values r) k =
  if (k <? Z.to_nat (rg_n r))%nat then Some (wrap64 (rg_b r + rg_d r * Z.of_nat k)) else None.
Proof.
  unfold range_values. rewrite nth_error_map, nth_error_seq.
  destruct (k <? Z.to_nat (rg_n r))%nat; reflexivity.
Qed.

Lemma length_range_values r : length (range_values r) = Z.to_nat (rg_n r).
Proof. unfold range_values; rewrite map_length, seq_length; reflexivity. Qed.

Lemma for_range_up b e :
  0 <= b <= e -> e < two63 ->
  exists l, for_range b e = Ok l /\ enumerates_up b (e - b) l.
Proof.
  intros Hb He. unfold two63 in *. unfold for_range, range2, omap.
  rewrite (to_signed64_small b), (to_signed64_small e) by (unfold two63; lia).
  rewrite signed64_ok by (unfold two63; lia). simpl.
  rewrite signed64_ok by (unfold two63; lia). simpl.
  unfold range_ctor. rewrite Z.abs_eq by lia.
  destruct (Z.eqb_spec (e - b) 0) as [E|E]; simpl.
  - exists []. unfold range_values; simpl. rewrite E; simpl.
    split; [reflexivity|]. split; [reflexivity|]. simpl; intros; lia.
  - rewrite !to_signed64_small by (unfold two63; lia).
    rewrite signed64_ok by (unfold two63; lia). simpl.
    rewrite Z.quot_same by lia. rewrite signed64_ok by (unfold two63; lia). simpl.
    eexists; split; [reflexivity|]. split.
    + rewrite length_range_values; simpl. lia.
    + intros k Hk. rewrite length_range_values in Hk; simpl in Hk.
      rewrite nth_error_range_values; cbn [rg_b rg_d rg_n].
      destruct (Nat.ltb_spec k (Z.to_nat (e - b))); [|lia].
      f_equal. rewrite wrap64_small; unfold two64; lia.
Qed.

Lemma for_range_down b e :
  0 <= e -> e < b -> b < two63 ->
  exists l, for_range b e = Ok l /\ enumerates_down b (b - e) l.
Proof.
  intros Hb He H. unfold two63 in *. unfold for_range, range2, omap.
  rewrite (to_signed64_small b), (to_signed64_small e) by (unfold two63; lia).
  rewrite signed64_ok by (unfold two63; lia). simpl.
  rewrite signed64_ok by (unfold two63; lia). simpl.
  unfold range_ctor. rewrite Z.abs_neq by lia.
  destruct (Z.eqb_spec (- (e - b)) 0) as [E|E]; simpl; [lia|].
  rewrite !to_signed64_small by (unfold two63; lia).
  rewrite signed64_ok by (unfold two63; lia). simpl.
  rewrite Z.quot_opp_r, Z.quot_same by lia. rewrite signed64_ok by (unfold two63; lia). simpl.
  eexists; split; [reflexivity|]. split.
  - rewrite length_range_values; simpl. lia.
  - intros k Hk. rewrite length_range_values in Hk; simpl in Hk.
    rewrite nth_error_range_values; cbn [rg_b rg_d rg_n].
    destruct (Nat.ltb_spec k (Z.to_nat (- (e - b)))); [|lia].
    f_equal. rewrite wrap64_small; unfold two64; lia.
Qed.

Lemma for_range_n_up n :
  0 <= n < two63 -> exists l, for_range_n n = Ok l /\ enumerates_up 0 n l.
Proof.
  intros H. destruct (for_range_up 0 n) as (l & H1 & H2); try lia.
  exists l; split; [exact H1|]. replace n with (n - 0) by lia. exact H2.
Qed.

(* ---------------------------------------------------------- range subscripts *)

Lemma vector_resize_ok n : n <= max_ptrs -> vector_resize n = Ok tt.
Proof. unfold vector_resize; intros; destruct (Z.leb_spec n max_ptrs); [reflexivity|lia]. Qed.

(* the inclusive interval denoted by a range subscript on n elements *)
Definition rng_first (r : rng) : Z :=
  match r with RFull | RLeft _ => 0 | RRight f | RLeftRight f _ => f end.
Definition rng_last (r : rng) (n : Z) : Z :=
  match r with RFull | RRight _ => n - 1 | RLeft l | RLeftRight _ l => l end.

Lemma bracket_ok r n :
  0 <= n <= max_ptrs ->
  0 <= rng_first r -> rng_first r <= rng_last r n + 1 -> rng_last r n < n ->
  (rng_first r < n \/ r = RFull) -> (0 <= rng_last r n \/ r = RFull) ->
  exists l, bracket_access r n = Ok l /\
    enumerates_up (rng_first r) (rng_last r n + 1 - rng_first r) l.
Proof.
  unfold max_ptrs; intros Hn H1 H2 H3 H4 H5. unfold bracket_access, rng_loop.
  destruct r as [|la|fi|fi la]; cbn [rng_first rng_last check_bounds range_size] in *.
  - rewrite vector_resize_ok by (unfold max_ptrs; lia). simpl.
    destruct (for_range_n_up n) as (l & E1 & E2); [unfold two63; lia|].
    rewrite E1. simpl. destruct E2 as [E2 E3]. rewrite E2, Z.eqb_refl.
    exists l; split; [reflexivity|]. split; [lia|exact E3].
  - destruct H5; [|discriminate]. destruct H4; [|discriminate].
    rewrite wrap64_small by (unfold two64; lia).
    rewrite vector_resize_ok by (unfold max_ptrs; lia). unfold check. simpl.
    destruct (Z.ltb_spec la n); [simpl|lia].
    destruct (for_range_n_up (la + 1)) as (l & E1 & E2); [unfold two63; lia|].
    rewrite E1. simpl. destruct E2 as [E2 E3]. rewrite E2, Z.eqb_refl.
    exists l; split; [reflexivity|]. split; [lia|exact E3].
  - destruct H4; [|discriminate].
    rewrite wrap64_small by (unfold two64; lia).
    rewrite vector_resize_ok by (unfold max_ptrs; lia). unfold check. simpl.
    destruct (Z.ltb_spec fi n); [simpl|lia].
    destruct (for_range_up fi n) as (l & E1 & E2); [lia|unfold two63; lia|].
    rewrite E1. simpl. destruct E2 as [E2 E3]. rewrite E2, Z.eqb_refl.
    exists l; split; [reflexivity|]. split; [lia|exact E3].
  - destruct H4; [|discriminate]. destruct H5; [|discriminate].
    rewrite (wrap64_small (la + 1)) by (unfold two64; lia).
    rewrite wrap64_small by (unfold two64; lia).
    rewrite vector_resize_ok by (unfold max_ptrs; lia). unfold check. simpl.
    destruct (Z.ltb_spec la n); [simpl|lia].
    destruct (Z.ltb_spec fi n); [simpl|lia].
    destruct (for_range_up fi (la+1)) as (l & E1 & E2); [lia|unfold two63; lia|].
    rewrite E1. simpl. destruct E2 as [E2 E3]. rewrite E2, Z.eqb_refl.
    exists l; split; [reflexivity|]. split; [lia|exact E3].
Qed.

Lemma bracket_reversed_throws fi la n :
  0 <= la < n -> 0 <= fi < n -> n <= max_ptrs -> la + 1 < fi ->
  bracket_access (RLeftRight fi la) n = Throws.
Proof.
  unfold max_ptrs; intros H1 H2 H3 H4. unfold bracket_access. cbn [range_size].
  rewrite (wrap64_small (la + 1)) by (unfold two64; lia).
  replace (wrap64 (la + 1 - fi)) with (two64 + (la + 1 - fi)).
  - unfold vector_resize, max_ptrs.
    destruct (Z.leb_spec (two64 + (la + 1 - fi)) 1152921504606846975); [|reflexivity].
    unfold two64 in *; lia.
  - unfold wrap64, two64 in *.
    rewrite <- (Z.mod_add (la + 1 - fi) 1) by lia. rewrite Z.mod_small; lia.
Qed.

Lemma bracket_out_of_bounds r n :
  0 <= n <= max_ptrs ->
  (match r with RFull => False | RLeft l => n <= l | RRight f => n <= f
   | RLeftRight f l => n <= l \/ n <= f end) ->
  (match r with RFull => True | RLeft l => is_u64 l | RRight f => is_u64 f
   | RLeftRight f l => is_u64 l /\ is_u64 f end) ->
  bracket_access r n = CheckFail \/ bracket_access r n = Throws.
Proof.
  intros Hn H Hu. unfold bracket_access, vector_resize.
  destruct (range_size r n <=? max_ptrs); [|right; reflexivity]. simpl. left.
  unfold rng_loop, check_bounds, check.
  destruct r as [|la|fi|fi la]; [contradiction| | |].
  - destruct (Z.ltb_spec la n); [lia|reflexivity].
  - destruct (Z.ltb_spec fi n); [lia|reflexivity].
  - destruct (Z.ltb_spec la n); [|reflexivity]. simpl.
    destruct (Z.ltb_spec fi n); [lia|reflexivity].
Qed.

(* ------------------------------------------------------------ signed indices *)

Lemma pow2_pos w : 0 <= w -> 0 < 2 ^ w.
Proof. intros; apply Z.pow_pos_nonneg; lia. Qed.

Lemma pow2_half w : 0 < w -> 2 ^ w = 2 * 2 ^ (w - 1).
Proof.
  intros H. replace w with (1 + (w - 1)) at 1 by lia. rewrite Z.pow_add_r by lia. reflexivity.
Qed.

(* adding the size to a negative index never leaves the narrow type when the size
   is at most 2^(w-1) *)
Lemma to_signed_step w size i :
  0 < w <= 64 -> 0 < size <= 2 ^ (w - 1) -> - 2 ^ (w - 1) <= i < 0 ->
  to_signed w (wrap64 (i + size)) = i + size.
Proof.
  intros Hw Hs Hi.
  assert (H1 : 0 < 2 ^ (w - 1)) by (apply pow2_pos; lia).
  pose proof (pow2_half w ltac:(lia)) as H2.
  assert (H3 : (2 ^ w | two64)).
  { exists (2 ^ (64 - w)). unfold two64. change 18446744073709551616 with (2 ^ 64).
    rewrite <- Z.pow_add_r by lia. f_equal; lia. }
  unfold to_signed, wrap64.
  assert (E : ((i + size) mod two64) mod 2 ^ w = (i + size) mod 2 ^ w).
  { symmetry; apply Znumtheory.Zmod_div_mod; [lia|unfold two64; lia|exact H3]. }
  cbv zeta. rewrite E. clear E.
  destruct (Z.ltb_spec (i + size) 0) as [L|L].
  - assert (E : (i + size) mod 2 ^ w = i + size + 2 ^ w).
    { rewrite <- (Z.mod_add _ 1) by lia. rewrite Z.mod_small; lia. }
    rewrite E. destruct (Z.ltb_spec (i + size + 2 ^ w) (2 ^ (w - 1))); lia.
  - rewrite Z.mod_small by lia.
    destruct (Z.ltb_spec (i + size) (2 ^ (w - 1))); lia.
Qed.

Lemma to_idx_loop_ok w size :
  0 < w <= 64 -> 0 < size <= 2 ^ (w - 1) ->
  forall m i, (Z.to_nat (- i) <= m)%nat -> - 2 ^ (w - 1) <= i < 2 ^ (w - 1) ->
  forall fuel, (m <= fuel)%nat ->
  to_idx_loop fuel w size i = Ok (if i <? 0 then i mod size else i).
Proof.
  intros Hw Hs m. induction m as [|m IH]; intros i Hm Hi fuel Hf.
  - destruct (Z.ltb_spec i 0); [lia|]. destruct fuel; cbn [to_idx_loop];
    destruct (Z.ltb_spec i 0); try lia; reflexivity.
  - destruct (Z.ltb_spec i 0) as [L|L].
    + destruct fuel as [|fuel]; [lia|]. cbn [to_idx_loop].
      destruct (Z.ltb_spec i 0); [|lia].
      rewrite to_signed_step by lia.
      rewrite IH by lia.
      destruct (Z.ltb_spec (i + size) 0) as [L2|L2].
      * f_equal. replace (i + size) with (i + 1 * size) by lia. apply Z.mod_add; lia.
      * f_equal. rewrite <- (Z.mod_add i 1) by lia. rewrite Z.mul_1_l.
        symmetry; apply Z.mod_small; lia.
    + destruct fuel; cbn [to_idx_loop]; destruct (Z.ltb_spec i 0); try lia; reflexivity.
Qed.

Lemma to_idx_signed_python w size i :
  0 < w <= 64 -> 0 <= size <= 2 ^ (w - 1) -> - 2 ^ (w - 1) <= i < 2 ^ (w - 1) ->
  exists F, forall fuel, (F <= fuel)%nat ->
    to_idx_signed fuel w size i = python_index size i.
Proof.
  intros Hw Hs Hi. exists (Z.to_nat (- i)). intros fuel Hf.
  unfold to_idx_signed, python_index, check.
  destruct (Z.ltb_spec 0 size) as [L|L]; destruct (Z.leb_spec size 0); try lia; try reflexivity.
  cbn [obind].
  rewrite (to_idx_loop_ok w size) with (m := Z.to_nat (- i)) by lia. simpl.
  destruct (Z.ltb_spec i 0) as [L2|L2].
  - pose proof (Z.mod_pos_bound i size L).
    destruct (Z.ltb_spec (i mod size) size); [reflexivity|lia].
  - destruct (i <? size); reflexivity.
Qed.

Lemma to_idx_loop_nonneg fuel w size i r : to_idx_loop fuel w size i = Ok r -> 0 <= r.
Proof.
  revert i; induction fuel as [|f IH]; intros i; cbn [to_idx_loop];
  destruct (Z.ltb_spec i 0); intros H'; try discriminate; try (inversion H'; lia).
  apply (IH _ H').
Qed.

(* no guard at all: a returned position is always inside the vector *)
Lemma to_idx_signed_safe fuel w size i r :
  to_idx_signed fuel w size i = Ok r -> 0 <= r < size.
Proof.
  unfold to_idx_signed, check. destruct (0 <? size); simpl; [|discriminate].
  destruct (to_idx_loop fuel w size i) eqn:E; simpl; try discriminate.
  destruct (Z.ltb_spec a size); simpl; intros H'; inversion H'; subst.
  split; [eapply to_idx_loop_nonneg; eassumption | assumption].
Qed.

(* int8_t index -1 into 256 elements: i += 256 leaves i unchanged for ever *)
Lemma to_idx_int8_256_diverges fuel : to_idx_signed fuel 8 256 (-1) = Diverge.
Proof.
  unfold to_idx_signed. cbn [check Z.ltb obind].
  assert (H : to_idx_loop fuel 8 256 (-1) = Diverge).
  { induction fuel as [|f IH]; [reflexivity|]. cbn [to_idx_loop].
    change (-1 <? 0) with true. cbv iota.
    replace (to_signed 8 (wrap64 (-1 + 256))) with (-1) by (vm_compute; reflexivity). exact IH. }
  rewrite H. reflexivity.
Qed.

End Ranges.

(* ------------------------------------------------- multi-dimensional indices *)
Local Open Scope nat_scope.

Lemma horner_acc dims : forall ids acc,
  length ids = length dims ->
  horner acc dims ids = acc * nprod dims + horner 0 dims ids.
Proof.
  induction dims as [|d ds IH]; intros [|i is] acc H; simpl in H; try discriminate.
  - simpl. unfold nprod; simpl. lia.
  - cbn [horner]. rewrite (IH is (acc * d + i)), (IH is (0 * d + i)) by lia.
    rewrite nprod_cons. nia.
Qed.

Lemma row_major_cons d ds i is :
  length is = length ds ->
  row_major (d :: ds) (i :: is) = i * nprod ds + row_major ds is.
Proof. unfold row_major; intros H; cbn [horner]. rewrite horner_acc by assumption. lia. Qed.

Lemma in_range_length dims ids : in_range dims ids -> length ids = length dims.
Proof. intros H; symmetry; induction H; simpl; auto. Qed.

Lemma row_major_bound dims ids : in_range dims ids -> row_major dims ids < nprod dims.
Proof.
  intros H; induction H as [|d i ds is H1 H2 IH].
  - unfold row_major, nprod; simpl; lia.
  - rewrite row_major_cons by (apply in_range_length; exact H2). rewrite nprod_cons. nia.
Qed.

Lemma row_major_inj dims ids1 ids2 :
  in_range dims ids1 -> in_range dims ids2 ->
  row_major dims ids1 = row_major dims ids2 -> ids1 = ids2.
Proof.
  intros H1; revert ids2; induction H1 as [|d i ds is L1 H1 IH]; intros ids2 H2 E.
  - inversion H2; reflexivity.
  - inversion H2 as [|d' j ds' js L2 H3]; subst.
    pose proof (row_major_bound _ _ H1) as B1. pose proof (row_major_bound _ _ H3) as B2.
    rewrite !row_major_cons in E by (apply in_range_length; assumption).
    assert (i = j).
    { destruct (Nat.lt_trichotomy i j) as [?|[?|?]]; auto; exfalso; nia. }
    subst j. f_equal. apply IH; [assumption|lia].
Qed.

Lemma row_major_surj dims k :
  k < nprod dims -> exists ids, in_range dims ids /\ row_major dims ids = k.
Proof.
  revert k; induction dims as [|d ds IH]; intros k H.
  - exists []; split; [constructor|]. unfold nprod in H; simpl in H. unfold row_major; simpl; lia.
  - rewrite nprod_cons in H.
    assert (0 < nprod ds) by (destruct (nprod ds); lia).
    destruct (IH (k mod nprod ds)) as (is & H1 & H2); [apply Nat.mod_upper_bound; lia|].
    exists (k / nprod ds :: is); split.
    + constructor; [|assumption]. apply Nat.div_lt_upper_bound; lia.
    + rewrite row_major_cons by (apply in_range_length; assumption).
      rewrite H2. rewrite (Nat.div_mod k (nprod ds)) at 3 by lia. lia.
Qed.

Lemma get_index_ok dims ids idx :
  in_range dims ids -> get_index dims ids idx = Ok (idx + row_major dims ids).
Proof.
  intros H; revert idx; induction H as [|d i ds is H1 H2 IH]; intros idx.
  - simpl. unfold row_major; simpl. f_equal; lia.
  - cbn [get_index]. unfold to_idx_nat, check.
    destruct (Nat.ltb_spec i d); [|lia]. simpl. rewrite IH.
    rewrite row_major_cons by (apply in_range_length; assumption). f_equal; lia.
Qed.

Lemma get_index_fail dims ids idx :
  length ids = length dims -> ~ in_range dims ids -> get_index dims ids idx = CheckFail.
Proof.
  revert ids idx; induction dims as [|d ds IH]; intros [|i is] idx HL H; try discriminate.
  - exfalso; apply H; constructor.
  - cbn [get_index]. unfold to_idx_nat, check. destruct (Nat.ltb_spec i d); [simpl|reflexivity].
    apply IH; [simpl in HL; lia|]. intros H'. apply H; constructor; assumption.
Qed.

Lemma get_index_in_range dims ids idx k : get_index dims ids idx = Ok k -> in_range dims ids.
Proof.
  revert ids idx; induction dims as [|d ds IH]; intros [|i is] idx; cbn [get_index]; try discriminate.
  - constructor.
  - unfold to_idx_nat, check. destruct (Nat.ltb_spec i d); simpl; [|discriminate].
    intros H'. constructor; [assumption|]. eapply IH; eassumption.
Qed.

Lemma get_index_inj dims ids1 ids2 k :
  get_index dims ids1 0 = Ok k -> get_index dims ids2 0 = Ok k -> ids1 = ids2.
Proof.
  intros H1 H2. pose proof (get_index_in_range _ _ _ _ H1) as R1.
  pose proof (get_index_in_range _ _ _ _ H2) as R2.
  rewrite get_index_ok in H1 by assumption. rewrite get_index_ok in H2 by assumption.
  apply (row_major_inj dims); [assumption|assumption|]. inversion H1; inversion H2; congruence.
Qed.

Lemma get_index_surj dims k :
  k < nprod dims -> exists ids, in_range dims ids /\ get_index dims ids 0 = Ok k.
Proof.
  intros H. destruct (row_major_surj dims k H) as (ids & H1 & H2).
  exists ids. split; [assumption|]. rewrite get_index_ok by assumption. rewrite H2. reflexivity.
Qed.

(* ---- flat_id ---- *)

Lemma pitch_skip dims i : i < length dims -> pitch dims i = nprod (skipn (i + 1) dims).
Proof.
  unfold pitch. intros Hi.
  assert (G : forall n s acc, s + n = length dims ->
    fold_left (fun p j => p * nth j dims 0) (seq s n) acc = acc * nprod (skipn s dims)).
  { intros n; induction n as [|n IH]; intros s acc Hs; simpl.
    - rewrite skipn_all2 by lia. unfold nprod; simpl; lia.
    - rewrite IH by lia.
      assert (E : skipn s dims = nth s dims 0 :: skipn (S s) dims).
      { clear -Hs. revert s Hs; induction dims as [|d ds IH]; intros s Hs; simpl in Hs; [lia|].
        destruct s as [|s]; [reflexivity|]. simpl. apply IH. lia. }
      rewrite E, nprod_cons. lia. }
  rewrite G by lia. lia.
Qed.

Lemma flat_id_gen pre : forall ds is ret,
  length is = length ds ->
  flat_id_ (pre ++ ds) ret (length pre) is = get_index ds is ret.
Proof.
  intros ds; revert pre; induction ds as [|d ds IH]; intros pre [|i is] ret HL; try discriminate; auto.
  cbn [flat_id_ get_index]. unfold oget at 1. rewrite nth_error_app2, Nat.sub_diag by lia.
  cbn [nth_error obind]. unfold to_idx_nat, check. destruct (i <? d); [simpl|reflexivity].
  rewrite pitch_skip by (rewrite app_length; simpl; lia).
  replace (skipn (length pre + 1) (pre ++ d :: ds)) with ds.
  - replace (length pre + 1) with (length (pre ++ [d])) by (rewrite app_length; reflexivity).
    replace (pre ++ d :: ds) with ((pre ++ [d]) ++ ds) by (rewrite <- app_assoc; reflexivity).
    rewrite IH by (simpl in HL; lia). f_equal; lia.
  - rewrite skipn_app. rewrite skipn_all2 by lia. simpl.
    replace (length pre + 1 - length pre) with 1 by lia. reflexivity.
Qed.

Lemma flat_id_get_index dims ids :
  length ids = length dims -> flat_id dims ids = get_index dims ids 0.
Proof.
  intros H. unfold flat_id. rewrite H, Nat.eqb_refl.
  apply (flat_id_gen [] dims ids 0 H).
Qed.

(* ---- mult_ids ---- *)

Definition mult_step (dims : list nat) : (list nat * nat) -> nat -> outcome (list nat * nat) :=
  fun '(r, i) j =>
      let k := length dims - 1 - j in
      d <- oget dims k ;;
      if d =? 0 then UB
      else r' <- oset r k (i mod d) ;; Ok (r', i / d).

Lemma upd_app_r A (l1 l2 : list A) i x :
  length l1 <= i -> upd (l1 ++ l2) i x = l1 ++ upd l2 (i - length l1) x.
Proof.
  revert i; induction l1 as [|a l1 IH]; intros i H; simpl in *.
  - f_equal; lia.
  - destruct i as [|i]; [lia|]. simpl. f_equal. rewrite IH by lia. reflexivity.
Qed.

Lemma repeat_app_last A (x : A) n : repeat x (S n) = repeat x n ++ [x].
Proof. induction n as [|n IH]; simpl; [reflexivity|]. simpl in IH. rewrite <- IH. reflexivity. Qed.

(* after processing the suffix [suf] of the dimensions *)
Lemma mult_ids_fold dims : Forall (fun d => 0 < d) dims ->
  forall suf pre, dims = pre ++ suf -> forall i,
  exists ids, in_range suf ids /\ row_major suf ids = i mod nprod suf /\
   ofold (mult_step dims) (seq 0 (length suf)) (repeat 0 (length dims), i)
   = Ok (repeat 0 (length pre) ++ ids, i / nprod suf).
Proof.
  intros Hp suf. induction suf as [|d suf IH]; intros pre E i.
  - exists []. split; [constructor|]. split.
    + unfold nprod, row_major; cbn [fold_right horner]. rewrite Nat.mod_1_r. reflexivity.
    + cbn [ofold seq length]. unfold nprod; cbn [fold_right]. rewrite Nat.div_1_r, app_nil_r.
      rewrite E, app_nil_r. reflexivity.
  - destruct (IH (pre ++ [d])) with (i := i) as (ids & H1 & H2 & H3).
    { rewrite <- app_assoc; exact E. }
    assert (Hd : 0 < d /\ 0 < nprod suf).
    { rewrite E in Hp. apply Forall_app in Hp. destruct Hp as [_ Hp].
      inversion Hp as [|? ? X Y]; subst. split; [assumption|]. apply nprod_pos; assumption. }
    destruct Hd as [Hd Hs].
    exists ((i / nprod suf) mod d :: ids). split; [|split].
    + constructor; [apply Nat.mod_upper_bound; lia|assumption].
    + rewrite row_major_cons by (apply in_range_length; assumption). rewrite H2, nprod_cons.
      rewrite (Nat.mul_comm d). rewrite Nat.mod_mul_r by lia. lia.
    + change (length (d :: suf)) with (S (length suf)). rewrite seq_S. cbn [Nat.add].
      rewrite ofold_app, H3. cbn [obind ofold mult_step].
      assert (Ek : length dims - 1 - length suf = length pre).
      { rewrite E, app_length. simpl. lia. }
      rewrite Ek. unfold oget. rewrite E at 1. rewrite nth_error_app2, Nat.sub_diag by lia.
      cbn [nth_error obind]. destruct (Nat.eqb_spec d 0); [lia|].
      unfold oset. rewrite ?app_length, ?repeat_length, ?app_length. cbn [length].
      destruct (Nat.ltb_spec (length pre) (length pre + 1 + length ids)); [|lia].
      cbn [obind]. f_equal. f_equal.
      * rewrite Nat.add_comm. cbn [Nat.add].
        rewrite repeat_app_last, <- app_assoc.
        rewrite upd_app_r by (rewrite repeat_length; lia).
        rewrite repeat_length, Nat.sub_diag. reflexivity.
      * rewrite nprod_cons. rewrite (Nat.mul_comm d), Nat.div_div by lia. reflexivity.
Qed.

Lemma mult_ids_spec dims i :
  Forall (fun d => 0 < d) dims ->
  exists ids, mult_ids dims i = Ok ids /\ in_range dims ids /\
    row_major dims ids = i mod nprod dims.
Proof.
  intros Hp. destruct (mult_ids_fold dims Hp dims [] eq_refl i) as (ids & H1 & H2 & H3).
  exists ids. split; [|split; assumption].
  unfold mult_ids. change (fun '(r, i0) j => _) with (mult_step dims).
  rewrite H3. reflexivity.
Qed.

Lemma mult_ids_zero dims i : ~ Forall (fun d => 0 < d) dims -> mult_ids dims i = UB.
Proof.
  intros Hn. unfold mult_ids. change (fun '(r, i0) j => _) with (mult_step dims).
  enough (G : ofold (mult_step dims) (seq 0 (length dims)) (repeat 0 (length dims), i) = UB)
    by (rewrite G; reflexivity).
  (* split dims at the last zero *)
  assert (E : exists pre suf, dims = pre ++ 0 :: suf /\ Forall (fun d => 0 < d) suf).
  { clear i. revert Hn. induction dims as [|d ds IH]; intros Hn; [exfalso; apply Hn; constructor|].
    destruct (Forall_dec (fun d => 0 < d) (fun d => lt_dec 0 d) ds) as [F|F].
    - exists [], ds. destruct d as [|d]; [split; [reflexivity|assumption]|].
      exfalso; apply Hn; constructor; [lia|assumption].
    - destruct (IH F) as (pre & suf & E1 & E2). exists (d :: pre), suf; subst; auto. }
  destruct E as (pre & suf & E & Hs).
  assert (G : forall s i0 r, length r = length dims -> length suf = s + length (skipn s suf) ->
     s <= length suf ->
     ofold (mult_step dims) (seq s (length dims - s)) (r, i0) = UB).
  { intros s. remember (length suf - s) as m eqn:Em. revert s Em.
    induction m as [|m IH]; intros s Em i0 r Hr _ Hle.
    - assert (s = length suf) by lia. subst s.
      assert (HD : length dims = length pre + S (length suf)) by (rewrite E, app_length; reflexivity).
      replace (length dims - length suf) with (S (length pre)) by lia.
      cbn [seq ofold mult_step].
      replace (length dims - 1 - length suf) with (length pre) by lia.
      unfold oget. rewrite E at 1. rewrite nth_error_app2, Nat.sub_diag by lia. reflexivity.
    - assert (HD : length dims = length pre + S (length suf)) by (rewrite E, app_length; reflexivity).
      replace (length dims - s) with (S (length dims - S s)) by lia.
      cbn [seq ofold mult_step].
      unfold oget.
      assert (Hk : length dims - 1 - s < length dims) by lia.
      destruct (nth_error dims (length dims - 1 - s)) as [d|] eqn:Ed;
        [|apply nth_error_None in Ed; lia].
      cbn [obind]. destruct (Nat.eqb_spec d 0); [reflexivity|].
      unfold oset. destruct (Nat.ltb_spec (length dims - 1 - s) (length r)); [|lia].
      cbn [obind]. apply IH; [lia|rewrite upd_length; assumption|rewrite skipn_length; lia|lia]. }
  replace (length dims) with (length dims - 0) at 1 by lia.
  apply G; [apply repeat_length|reflexivity|lia].
Qed.

(* ---- increment_index_list ---- *)

Lemma upd_app_l A (l1 l2 : list A) i x :
  i < length l1 -> upd (l1 ++ l2) i x = upd l1 i x ++ l2.
Proof.
  revert i; induction l1 as [|a l1 IH]; intros i H; simpl in *; [lia|].
  destruct i as [|i]; simpl; [reflexivity|]. rewrite IH by lia. reflexivity.
Qed.

Lemma upd_last A (l : list A) x y t : upd (l ++ x :: t) (length l) y = l ++ y :: t.
Proof. rewrite upd_app_r, Nat.sub_diag by lia. reflexivity. Qed.

Lemma nth_error_mid A (l : list A) x t : nth_error (l ++ x :: t) (length l) = Some x.
Proof. rewrite nth_error_app2, Nat.sub_diag by lia. reflexivity. Qed.

(* processing position |pre| with zeros already written to the right *)
Lemma row_major_app d1 d2 i1 i2 :
  length i1 = length d1 -> length i2 = length d2 ->
  row_major (d1 ++ d2) (i1 ++ i2) = row_major d1 i1 * nprod d2 + row_major d2 i2.
Proof.
  revert i1; induction d1 as [|d d1 IH]; intros [|i i1] H1 H2; try discriminate.
  - reflexivity.
  - cbn [app]. rewrite !row_major_cons by (rewrite ?app_length; simpl in *; lia).
    rewrite IH by (simpl in *; lia). rewrite nprod_app. nia.
Qed.

Lemma row_major_zeros ds : row_major ds (repeat 0 (length ds)) = 0.
Proof.
  induction ds as [|d ds IH]; [reflexivity|]. cbn [length repeat].
  rewrite row_major_cons by apply repeat_length. rewrite IH. lia.
Qed.

Lemma in_range_zeros ds : Forall (fun d => 0 < d) ds -> in_range ds (repeat 0 (length ds)).
Proof. intros H; induction H; simpl; constructor; auto. Qed.

Lemma increment_from_spec dims :
  Forall (fun d => 0 < d) dims ->
  forall pre suf ipre, dims = pre ++ suf -> in_range pre ipre -> pre <> [] ->
  exists ids',
    increment_from (length pre) (ipre ++ repeat 0 (length suf)) dims = Ok ids' /\
    in_range dims ids' /\
    row_major dims ids' = (row_major dims (ipre ++ repeat 0 (length suf)) + nprod suf) mod nprod dims.
Proof.
  intros Hp pre. induction pre as [|d pre IH] using rev_ind; intros suf ipre E Hr Hne; [contradiction|].
  clear Hne.
  apply Forall2_app_inv_l in Hr. destruct Hr as (ip & il & Hip & Hil & ->).
  inversion Hil as [|? x ? ? Hx Hnil]; subst. inversion Hnil; subst. clear Hil Hnil.
  pose proof (in_range_length _ _ Hip) as Lip.
  rewrite app_length. cbn [length]. rewrite Nat.add_comm. cbn [Nat.add increment_from].
  rewrite <- !app_assoc. cbn [app]. rewrite <- Lip.
  unfold oget. rewrite nth_error_mid. cbn [obind].
  unfold oset at 1. rewrite app_length. cbn [length].
  destruct (Nat.ltb_spec (length ip) (length ip + S (length (repeat 0 (length suf))))); [|lia].
  assert (Hm : nth_error (pre ++ d :: suf) (length ip) = Some d)
    by (rewrite Lip; apply nth_error_mid).
  cbn [obind]. rewrite upd_last. rewrite Hm. cbn [obind].
  rewrite <- app_assoc in Hp, IH. cbn [app] in Hp, IH.
  assert (Hpp := Hp). apply Forall_app in Hpp. destruct Hpp as [Hp1 Hp2].
  inversion Hp2 as [|? ? Hd Hsuf]; subst.
  assert (Ps : 0 < nprod suf) by (apply nprod_pos; assumption).
  assert (Pp : 0 < nprod pre) by (apply nprod_pos; assumption).
  assert (Lsuf : length (repeat 0 (length suf)) = length suf) by apply repeat_length.
  assert (RM : forall y, row_major (pre ++ d :: suf) (ip ++ y :: repeat 0 (length suf))
             = row_major pre ip * (d * nprod suf) + y * nprod suf).
  { intros y. rewrite row_major_app by (simpl; lia).
    rewrite row_major_cons, row_major_zeros, nprod_cons by lia. lia. }
  pose proof (row_major_bound _ _ Hip) as Bip.
  destruct (Nat.eqb_spec (x + 1) d) as [Ed|Ed].
  - unfold oset. rewrite app_length. cbn [length].
    destruct (Nat.ltb_spec (length ip) (length ip + S (length (repeat 0 (length suf))))); [|lia].
    cbn [obind]. rewrite upd_last.
    destruct (Nat.eqb_spec (length ip) 0) as [E0|E0].
    + destruct ip; [|discriminate]. destruct pre; [|discriminate].
      eexists; split; [reflexivity|]. split.
      * simpl. constructor; [assumption|apply in_range_zeros; assumption].
      * cbn [app]. cbn [app] in RM. rewrite !RM. rewrite nprod_cons.
        unfold row_major; cbn [horner].
        replace (0 * (d * nprod suf) + x * nprod suf + nprod suf) with (1 * (d * nprod suf)) by (subst d; lia).
        rewrite Nat.mod_mul by nia. lia.
    + rewrite Lip.
      destruct (IH (d :: suf) ip) as (ids' & H1 & H2 & H3); auto.
      { destruct pre; [simpl in Lip; lia|discriminate]. }
      change (0 :: repeat 0 (length suf)) with (repeat 0 (length (d :: suf))).
      exists ids'. split; [exact H1|]. split; [exact H2|].
      rewrite H3. cbn [length repeat]. rewrite !RM. rewrite nprod_cons. f_equal. subst d. lia.
  - eexists; split; [reflexivity|]. split.
    + apply Forall2_app; [assumption|]. constructor; [lia|apply in_range_zeros; assumption].
    + rewrite !RM. rewrite nprod_app, nprod_cons. rewrite Nat.mod_small; [lia|].
      assert (row_major pre ip * (d * nprod suf) + d * nprod suf <= nprod pre * (d * nprod suf)) by nia.
      nia.
Qed.

Lemma increment_spec dims ids :
  dims <> [] -> in_range dims ids ->
  exists ids', increment_index_list ids dims = Ok ids' /\ in_range dims ids' /\
    row_major dims ids' = (row_major dims ids + 1) mod nprod dims.
Proof.
  intros Hne Hr.
  assert (Hp : Forall (fun d => 0 < d) dims).
  { clear Hne. induction Hr; constructor; auto; lia. }
  destruct (increment_from_spec dims Hp dims [] ids) as (ids' & H1 & H2 & H3); auto.
  { rewrite app_nil_r; reflexivity. }
  cbn [length repeat] in *. rewrite app_nil_r in H1, H3.
  exists ids'. unfold increment_index_list. rewrite (in_range_length _ _ Hr).
  split; [assumption|split; [assumption|]]. rewrite H3. reflexivity.
Qed.

Lemma increment_times_spec dims : dims <> [] -> forall k ids,
  in_range dims ids ->
  exists ids', increment_times k ids dims = Ok ids' /\ in_range dims ids' /\
    row_major dims ids' = (row_major dims ids + k) mod nprod dims.
Proof.
  intros Hne k; induction k as [|k IH]; intros ids Hr.
  - exists ids; split; [reflexivity|]. split; [assumption|].
    pose proof (row_major_bound _ _ Hr). rewrite Nat.mod_small; lia.
  - destruct (increment_spec dims ids Hne Hr) as (i1 & H1 & H2 & H3).
    destruct (IH i1 H2) as (i2 & H4 & H5 & H6).
    exists i2. cbn [increment_times]. rewrite H1. cbn [obind].
    split; [assumption|split; [assumption|]].
    rewrite H6, H3. pose proof (row_major_bound _ _ Hr).
    rewrite Nat.add_mod_idemp_l by lia. f_equal; lia.
Qed.

Lemma increment_times_add k1 k2 ids n :
  increment_times (k1 + k2) ids n = (x <- increment_times k1 ids n ;; increment_times k2 x n).
Proof.
  revert ids; induction k1 as [|k1 IH]; intros ids; simpl; [reflexivity|].
  destruct (increment_index_list ids n); simpl; auto.
Qed.
