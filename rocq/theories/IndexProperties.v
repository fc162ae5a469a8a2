(* Property theorems C01-C05 and C10: ranges, subscripts, index conversion. *)
From Verif Require Import Base IndexModel IndexSpec IndexProofs.

(* ---- C01 : integer ranges ------------------------------------------------ *)
Section C01.
Local Open Scope Z_scope.

(* for (i : range(n)) visits 0..n-1 *)
Theorem C01_range_n : forall n, 0 <= n < two63 ->
  exists l, for_range_n n = Ok l /\ enumerates_up 0 n l.
Proof. exact for_range_n_up. Qed.
Print Assumptions C01_range_n.

(* for (i : range(b,e)) with b <= e visits b..e-1 *)
Theorem C01_range_up : forall b e, 0 <= b <= e -> e < two63 ->
  exists l, for_range b e = Ok l /\ enumerates_up b (e - b) l.
Proof. exact for_range_up. Qed.
Print Assumptions C01_range_up.

(* for (i : range(b,e)) with e < b is not empty: it counts down from b to e+1 *)
Theorem C01_range_down : forall b e, 0 <= e -> e < b -> b < two63 ->
  exists l, for_range b e = Ok l /\ enumerates_down b (b - e) l.
Proof. exact for_range_down. Qed.
Print Assumptions C01_range_down.

(* beyond 2^63 the claim fails: range(0, npos) visits a single value ... *)
Theorem C01_range_u64_refuted :
  exists b e l, is_u64 b /\ is_u64 e /\ b <= e /\ for_range b e = Ok l /\
    ~ enumerates_up b (e - b) l.
Proof.
  exists 0, npos, [0]. repeat split; try (vm_compute; congruence).
  intros [H _]. vm_compute in H. discriminate.
Qed.
Print Assumptions C01_range_u64_refuted.

(* ... or is a signed overflow *)
Theorem C01_range_overflow : for_range 1 two63 = UB.
Proof. vm_compute. reflexivity. Qed.
Print Assumptions C01_range_overflow.

Example C01_ex_up : for_range 2 6 = Ok [2; 3; 4; 5].
Proof. reflexivity. Qed.
Example C01_ex_down : for_range 1 0 = Ok [1]. (* range(1, v.size()) on an empty v *)
Proof. reflexivity. Qed.
Example C01_ex_n : for_range_n 3 = Ok [0; 1; 2].
Proof. reflexivity. Qed.
End C01.

(* ---- C02 : signed subscripts --------------------------------------------- *)
Section C02.
Local Open Scope Z_scope.

(* unsigned subscripts: accepted unchanged when inside, the program stops otherwise *)
Theorem C02_unsigned_index : forall n i, 0 <= i ->
  to_idx_unsigned n i = if i <? n then Ok i else CheckFail.
Proof. intros n i _. unfold to_idx_unsigned. destruct (i <? n); reflexivity. Qed.
Print Assumptions C02_unsigned_index.

Theorem C02_signed_index : forall w n i,
  0 < w <= 64 -> 0 <= n <= 2 ^ (w - 1) -> - 2 ^ (w - 1) <= i < 2 ^ (w - 1) ->
  exists F, forall fuel, (F <= fuel)%nat -> to_idx_signed fuel w n i = python_index n i.
Proof. exact to_idx_signed_python. Qed.
Print Assumptions C02_signed_index.

(* whatever the width and the size, an accepted subscript is inside the vector *)
Theorem C02_signed_index_safe : forall fuel w n i r,
  to_idx_signed fuel w n i = Ok r -> 0 <= r < n.
Proof. exact to_idx_signed_safe. Qed.
Print Assumptions C02_signed_index_safe.

Theorem C02_narrow_index_refuted :
  exists w n i r, - 2 ^ (w - 1) <= i < 2 ^ (w - 1) /\ 0 < n /\
    to_idx_signed 1000 w n i = Ok r /\ python_index n i <> Ok r.
Proof. exists 8, 200, (-1), 87. repeat split; vm_compute; congruence. Qed.
Print Assumptions C02_narrow_index_refuted.

Theorem C02_narrow_index_diverges : forall fuel, to_idx_signed fuel 8 256 (-1) = Diverge.
Proof. exact to_idx_int8_256_diverges. Qed.
Print Assumptions C02_narrow_index_diverges.

Example C02_ex1 : to_idx_signed 10 64 5 (-7) = Ok 3.
Proof. reflexivity. Qed.
Example C02_ex2 : to_idx_signed 10 64 5 5 = CheckFail.
Proof. reflexivity. Qed.
Example C02_ex3 : to_idx_signed 10 64 0 (-1) = CheckFail.
Proof. reflexivity. Qed.
End C02.

(* ---- C03 : row-major subscripts ------------------------------------------ *)
Local Open Scope nat_scope.

(* in-range subscripts address the row-major element, inside the storage *)
Theorem C03_row_major : forall A dims (data : list A) ids,
  length data = nprod dims -> in_range dims ids ->
  exists x, vec_access dims data ids = Ok x /\
            nth_error data (row_major dims ids) = Some x.
Proof.
  intros A dims data ids HL Hr. unfold vec_access. rewrite get_index_ok by assumption.
  simpl. unfold oget. pose proof (row_major_bound _ _ Hr) as B. rewrite <- HL in B.
  destruct (nth_error data (row_major dims ids)) eqn:E.
  - exists a; auto.
  - apply nth_error_None in E; lia.
Qed.
Print Assumptions C03_row_major.

(* two subscript tuples never address the same element *)
Theorem C03_no_collision : forall dims ids1 ids2 k,
  get_index dims ids1 0 = Ok k -> get_index dims ids2 0 = Ok k -> ids1 = ids2.
Proof. exact get_index_inj. Qed.
Print Assumptions C03_no_collision.

(* every stored element is addressed by some tuple *)
Theorem C03_every_element : forall dims k, k < nprod dims ->
  exists ids, in_range dims ids /\ get_index dims ids 0 = Ok k.
Proof. exact get_index_surj. Qed.
Print Assumptions C03_every_element.

Theorem C03_out_of_range_stops : forall A dims (data : list A) ids,
  length ids = length dims -> ~ in_range dims ids ->
  vec_access dims data ids = CheckFail.
Proof.
  intros A dims data ids HL H. unfold vec_access. rewrite get_index_fail by assumption. reflexivity.
Qed.
Print Assumptions C03_out_of_range_stops.

Example C03_ex : vec_access [2;3;2] (seq 100 12) [1;0;1] = Ok 107.
Proof. reflexivity. Qed.
Example C03_ex_in : in_range [2;3;2] [1;0;1].
Proof. repeat constructor. Qed.
Example C03_ex_out : vec_access [2;3;2] (seq 100 12) [0;3;0] = CheckFail.
Proof. reflexivity. Qed.

(* ---- C04 : flat_id / mult_ids -------------------------------------------- *)
Theorem C04_flat_then_mult : forall dims ids, in_range dims ids ->
  exists i, flat_id dims ids = Ok i /\ i < nprod dims /\ mult_ids dims i = Ok ids.
Proof.
  intros dims ids Hr. exists (row_major dims ids).
  rewrite flat_id_get_index by (apply in_range_length; assumption).
  rewrite get_index_ok by assumption. split; [reflexivity|].
  pose proof (row_major_bound _ _ Hr) as B. split; [assumption|].
  destruct (mult_ids_spec dims (row_major dims ids)) as (ids' & H1 & H2 & H3).
  { apply nprod_pos; lia. }
  rewrite Nat.mod_small in H3 by assumption.
  rewrite H1. f_equal. eapply row_major_inj; eassumption.
Qed.
Print Assumptions C04_flat_then_mult.

Theorem C04_mult_then_flat : forall dims i, i < nprod dims ->
  exists ids, mult_ids dims i = Ok ids /\ in_range dims ids /\ flat_id dims ids = Ok i.
Proof.
  intros dims i Hi.
  destruct (mult_ids_spec dims i) as (ids & H1 & H2 & H3).
  { apply nprod_pos; lia. }
  exists ids. split; [assumption|]. split; [assumption|].
  rewrite flat_id_get_index by (apply in_range_length; assumption).
  rewrite get_index_ok by assumption. rewrite H3, Nat.mod_small by assumption. reflexivity.
Qed.
Print Assumptions C04_mult_then_flat.

(* out-of-range multi-indices stop the program ... *)
Theorem C04_flat_out_of_range : forall dims ids,
  length ids = length dims -> ~ in_range dims ids -> flat_id dims ids = CheckFail.
Proof.
  intros. rewrite flat_id_get_index by assumption. apply get_index_fail; assumption.
Qed.
Print Assumptions C04_flat_out_of_range.

(* ... but out-of-range flat indices silently wrap around *)
Theorem C04_mult_wraps : forall dims i, 0 < nprod dims ->
  mult_ids dims i = mult_ids dims (i mod nprod dims).
Proof.
  intros dims i Hp. apply nprod_pos in Hp.
  destruct (mult_ids_spec dims i Hp) as (a & A1 & A2 & A3).
  destruct (mult_ids_spec dims (i mod nprod dims) Hp) as (b & B1 & B2 & B3).
  rewrite Nat.mod_mod in B3 by (apply nprod_pos in Hp; lia).
  rewrite A1, B1. f_equal. apply (row_major_inj dims); [assumption|assumption|congruence].
Qed.
Print Assumptions C04_mult_wraps.

Theorem C04_mult_out_of_range_refuted :
  exists dims i ids, nprod dims <= i /\ mult_ids dims i = Ok ids.
Proof. exists [2;3], 7, [0;1]. split; [vm_compute; lia | reflexivity]. Qed.
Print Assumptions C04_mult_out_of_range_refuted.

(* a zero dimension divides by zero *)
Theorem C04_mult_zero_dim : forall dims i,
  nprod dims = 0 -> mult_ids dims i = UB.
Proof. intros dims i H. apply mult_ids_zero. rewrite nprod_pos. lia. Qed.
Print Assumptions C04_mult_zero_dim.

Example C04_ex1 : flat_id [2;3;4] [1;2;3] = Ok 23.
Proof. reflexivity. Qed.
Example C04_ex2 : mult_ids [2;3;4] 17 = Ok [1;1;1].
Proof. reflexivity. Qed.
Example C04_ex3 : mult_ids [2;0;4] 1 = UB.
Proof. reflexivity. Qed.

(* ---- C05 : increment_index_list ------------------------------------------ *)

(* k calls from all zeros give the multi-index of flat element k *)
Theorem C05_walk : forall dims k, dims <> [] -> k < nprod dims ->
  exists ids, increment_times k (repeat 0 (length dims)) dims = Ok ids /\
              in_range dims ids /\ row_major dims ids = k.
Proof.
  intros dims k Hne Hk.
  destruct (increment_times_spec dims Hne k (repeat 0 (length dims))) as (ids & H1 & H2 & H3).
  { apply in_range_zeros, nprod_pos. lia. }
  exists ids. split; [assumption|split; [assumption|]].
  rewrite H3, row_major_zeros. apply Nat.mod_small. assumption.
Qed.
Print Assumptions C05_walk.

(* every multi-index is reached exactly once during the walk *)
Theorem C05_each_once : forall dims ids, dims <> [] -> in_range dims ids ->
  exists! k, k < nprod dims /\ increment_times k (repeat 0 (length dims)) dims = Ok ids.
Proof.
  intros dims ids Hne Hr. pose proof (row_major_bound _ _ Hr) as B.
  exists (row_major dims ids). split.
  - split; [assumption|].
    destruct (C05_walk dims _ Hne B) as (ids' & H1 & H2 & H3).
    rewrite H1. f_equal. eapply row_major_inj; eassumption.
  - intros k [Hk H]. destruct (C05_walk dims k Hne Hk) as (ids' & H1 & H2 & H3).
    congruence.
Qed.
Print Assumptions C05_each_once.

(* and the walk returns to all zeros after visiting everything *)
Theorem C05_back_to_zero : forall dims, dims <> [] -> 0 < nprod dims ->
  increment_times (nprod dims) (repeat 0 (length dims)) dims = Ok (repeat 0 (length dims)).
Proof.
  intros dims Hne Hp.
  destruct (increment_times_spec dims Hne (nprod dims) (repeat 0 (length dims)))
    as (ids & H1 & H2 & H3).
  { apply in_range_zeros, nprod_pos. lia. }
  rewrite H1. f_equal. rewrite row_major_zeros in H3. cbn [Nat.add] in H3.
  rewrite Nat.mod_same in H3 by lia.
  eapply row_major_inj; [eassumption|apply in_range_zeros, nprod_pos; lia|].
  rewrite row_major_zeros. assumption.
Qed.
Print Assumptions C05_back_to_zero.

Example C05_ex : increment_times 5 [0;0] [2;3] = Ok [1;2].
Proof. reflexivity. Qed.
Example C05_ex_back : increment_times 6 [0;0] [2;3] = Ok [0;0].
Proof. reflexivity. Qed.

(* ---- C10 : range subscripts ---------------------------------------------- *)
Local Open Scope Z_scope.

(* the inclusive interval written by the user *)
Theorem C10_full : forall n, 0 <= n <= max_ptrs ->
  exists l, bracket_access RFull n = Ok l /\ enumerates_up 0 n l.
Proof.
  intros n Hn. destruct (bracket_ok RFull n) as (l & H1 & H2); cbn [rng_first rng_last]; try lia; auto.
  exists l; split; [assumption|]. cbn [rng_first rng_last] in H2.
  replace n with (n - 1 + 1 - 0) by lia. assumption.
Qed.
Print Assumptions C10_full.

Theorem C10_up_to : forall n b, 0 <= b < n -> n <= max_ptrs ->
  exists l, bracket_access (RLeft b) n = Ok l /\ enumerates_up 0 (b + 1) l.
Proof.
  intros n b Hb Hn. destruct (bracket_ok (RLeft b) n) as (l & H1 & H2);
    cbn [rng_first rng_last]; try lia; auto.
  exists l; split; [assumption|]. cbn [rng_first rng_last] in H2.
  replace (b + 1) with (b + 1 - 0) by lia. assumption.
Qed.
Print Assumptions C10_up_to.

Theorem C10_from : forall n a, 0 <= a < n -> n <= max_ptrs ->
  exists l, bracket_access (RRight a) n = Ok l /\ enumerates_up a (n - a) l.
Proof.
  intros n b Hb Hn. destruct (bracket_ok (RRight b) n) as (l & H1 & H2);
    cbn [rng_first rng_last]; try lia; auto.
  exists l; split; [assumption|]. cbn [rng_first rng_last] in H2.
  replace (n - b) with (n - 1 + 1 - b) by lia. assumption.
Qed.
Print Assumptions C10_from.

(* includes a = b+1, which selects nothing *)
Theorem C10_between : forall n a b, 0 <= a < n -> 0 <= b < n -> a <= b + 1 -> n <= max_ptrs ->
  exists l, bracket_access (RLeftRight a b) n = Ok l /\ enumerates_up a (b + 1 - a) l.
Proof.
  intros n a b Ha Hb Hab Hn. destruct (bracket_ok (RLeftRight a b) n) as (l & H1 & H2);
    cbn [rng_first rng_last]; try lia; auto.
  exists l; split; assumption.
Qed.
Print Assumptions C10_between.

(* bounds outside the vector never yield a view *)
Theorem C10_out_of_bounds : forall r n, 0 <= n <= max_ptrs ->
  match r with
  | RFull => False
  | RLeft l => n <= l /\ is_u64 l
  | RRight f => n <= f /\ is_u64 f
  | RLeftRight f l => (n <= l \/ n <= f) /\ is_u64 l /\ is_u64 f
  end ->
  bracket_access r n = CheckFail \/ bracket_access r n = Throws.
Proof.
  intros r n Hn H. apply bracket_out_of_bounds; [assumption| |]; destruct r; tauto.
Qed.
Print Assumptions C10_out_of_bounds.

(* a reversed range passes the bound checks in spirit, but its size wraps around
   2^64 and the allocation throws std::length_error instead of a vif error *)
Theorem C10_reversed_throws : forall n a b,
  0 <= b < n -> 0 <= a < n -> n <= max_ptrs -> b + 1 < a ->
  bracket_access (RLeftRight a b) n = Throws.
Proof. intros. apply bracket_reversed_throws; assumption. Qed.
Print Assumptions C10_reversed_throws.

Example C10_ex1 : bracket_access (RLeftRight 1 3) 5 = Ok [1;2;3].
Proof. reflexivity. Qed.
Example C10_ex2 : bracket_access (RRight 3) 5 = Ok [3;4].
Proof. reflexivity. Qed.
Example C10_ex3 : bracket_access (RLeftRight 3 1) 5 = Throws.
Proof. reflexivity. Qed.
Example C10_ex4 : bracket_access (RLeft 5) 5 = CheckFail.
Proof. reflexivity. Qed.
