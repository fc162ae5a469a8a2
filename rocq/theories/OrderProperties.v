(* Property theorems C11-C15, C17-C19, C54: searching, sorting, rearranging. *)
From Verif Require Import Base IndexModel IndexSpec VecModel VecSpec VecProofs OrderModel OrderSpec OrderProofs OrderProofs2 OrderProofs3.

(* ---- C11 : where and complement ------------------------------------------- *)

Theorem C11_where : forall v i, In i (where_ v) <-> nth_error v i = Some true.
Proof. exact where_in. Qed.
Print Assumptions C11_where.

Theorem C11_where_increasing : forall v, ordered lt (where_ v).
Proof. exact where_sorted. Qed.
Print Assumptions C11_where_increasing.

Theorem C11_where_first : forall v, where_first v = hd_error (where_ v).
Proof. intros v. apply where_first_from_spec. Qed.
Print Assumptions C11_where_first.

Theorem C11_where_last : forall v, where_last v = Ok (hd_error (rev (where_ v))).
Proof. exact where_last_spec. Qed.
Print Assumptions C11_where_last.

(* at most size-many valid ids, distinct if there are exactly that many *)
Theorem C11_complement : forall A (v : list A) ids,
  Forall (fun i => i < length v) ids -> length ids <= length v ->
  (length ids = length v -> NoDup ids) ->
  exists c, complement v ids = Ok c /\ ordered lt c /\ forall i, In i c <-> i < length v /\ ~ In i ids.
Proof. exact @complement_spec. Qed.
Print Assumptions C11_complement.

Theorem C11_complement_reject : forall A (v : list A) ids,
  length v < length ids \/ (length ids < length v /\ ~ Forall (fun i => i < length v) ids) ->
  complement v ids = CheckFail.
Proof. exact @complement_reject. Qed.
Print Assumptions C11_complement_reject.

Theorem C11_partition : forall m, exists c, complement m (where_ m) = Ok c /\
  Permutation (where_ m ++ c) (seq 0 (length m)) /\ forall i, In i c <-> nth_error m i = Some false.
Proof. exact where_complement. Qed.
Print Assumptions C11_partition.

(* as many ids as elements, with a repetition: nothing is returned *)
Theorem C11_complement_repeated_refuted :
  exists (v : list nat) ids i, Forall (fun i => i < length v) ids /\
    complement v ids = Ok [] /\ i < length v /\ ~ In i ids.
Proof.
  exists [5;6;7], [0;0;1], 2. split; [repeat constructor|]. split; [reflexivity|]. split; [simpl; lia|].
  simpl. lia.
Qed.
Print Assumptions C11_complement_repeated_refuted.

Example C11_ex : where_ [false;true;true;false] = [1;2] /\ where_first [false;true;true;false] = Some 1 /\
  where_last [false;true;true;false] = Ok (Some 2) /\ complement [9;9;9;9] [1;2] = Ok [0;3] /\
  complement [9;9;9;9] [1;1] = Ok [0;2;3].
Proof. repeat split. Qed.

(* ---- C12 : unique --------------------------------------------------------- *)

Theorem C12_unique_ids : forall A (ltA ne : A -> A -> bool) v,
  weak_order ltA -> differs ltA ne v ->
  exists r, unique_ids ltA ne v = Ok r /\ unique_result ltA v r /\ unique_first ltA v r.
Proof. intros A ltA ne v W. exact (unique_ids_spec ltA ne W v). Qed.
Print Assumptions C12_unique_ids.

Theorem C12_unique_ids_sorted : forall A (ltA ne : A -> A -> bool) v,
  weak_order ltA -> differs ltA ne v -> ascending ltA v ->
  exists r, unique_ids_sorted ne v = Ok r /\ unique_result ltA v r /\ unique_first ltA v r.
Proof. intros A ltA ne v W. exact (unique_ids_sorted_spec ltA ne W v). Qed.
Print Assumptions C12_unique_ids_sorted.

(* sort indices supplied by the caller: they may cover only part of v *)
Theorem C12_unique_ids_with : forall A (ltA ne : A -> A -> bool) v sid vals,
  weak_order ltA -> differs ltA ne v ->
  map (nth_error v) sid = map Some vals -> ascending ltA vals ->
  exists r vals', unique_ids_with ne v sid = Ok r /\ map (nth_error v) r = map Some vals' /\
    strictly_ascending ltA vals' /\
    (forall x, In x vals -> exists y, In y vals' /\ equiv ltA y x) /\ (forall i, In i r -> In i sid).
Proof.
  intros A ltA ne v sid vals W D H O. apply at_ids_values in H.
  destruct (unique_ids_with_spec ltA ne W v sid vals D H O) as (r & vals' & H1 & H2 & H3).
  exists r, vals'. split; [exact H1|]. split; [apply at_ids_values; exact H2|exact H3].
Qed.
Print Assumptions C12_unique_ids_with.

Theorem C12_unique_values : forall A (ltA ne : A -> A -> bool) v,
  weak_order ltA -> differs ltA ne v ->
  exists vals, unique_values ltA ne v = Ok vals /\ strictly_ascending ltA vals /\
    (forall x, In x v -> exists y, In y vals /\ equiv ltA y x) /\ (forall y, In y vals -> In y v).
Proof.
  intros A ltA ne v W D. destruct (unique_ids_spec ltA ne W v D) as (r & E & (vals & V & H) & _).
  exists vals. split; [|exact H]. unfold unique_values. rewrite E. cbn [obind]. apply at_ids_values. exact V.
Qed.
Print Assumptions C12_unique_values.

Theorem C12_unique_values_sorted : forall A (ltA ne : A -> A -> bool) v,
  weak_order ltA -> differs ltA ne v -> ascending ltA v ->
  exists vals, unique_values_sorted ne v = Ok vals /\ strictly_ascending ltA vals /\
    (forall x, In x v -> exists y, In y vals /\ equiv ltA y x) /\ (forall y, In y vals -> In y v).
Proof.
  intros A ltA ne v W D O. destruct (unique_ids_sorted_spec ltA ne W v D O) as (r & E & (vals & V & H) & _).
  exists vals. split; [|exact H]. unfold unique_values_sorted. rewrite E. cbn [obind]. apply at_ids_values. exact V.
Qed.
Print Assumptions C12_unique_values_sorted.

(* a NaN differs from itself, so it is listed several times *)
Theorem C12_nan_refuted : exists v, unique_values fl_less fl_ne v = Ok [Num 3; NaN; NaN] /\ v = [NaN; Num 3; NaN; Num 3].
Proof. exists [NaN; Num 3; NaN; Num 3]. split; reflexivity. Qed.
Print Assumptions C12_nan_refuted.

Lemma Z_weak_order : weak_order Z.ltb.
Proof. split; intros; lia. Qed.
Lemma Z_differs l : differs Z.ltb (fun x y => negb (Z.eqb x y)) l.
Proof. intros x y _ _. lia. Qed.
Lemma fl_weak_order : weak_order fl_less.
Proof.
  split.
  - intros [|x] [|y]; simpl; intros; try congruence; lia.
  - intros [|x] [|y] [|z]; simpl; intros; try discriminate; auto; lia.
Qed.
Example C12_ex : unique_ids Z.ltb (fun x y => negb (Z.eqb x y)) [5;2;5;1;2]%Z = Ok [3;1;0] /\
  unique_values Z.ltb (fun x y => negb (Z.eqb x y)) [5;2;5;1;2]%Z = Ok [1;2;5]%Z.
Proof. split; reflexivity. Qed.

(* ---- C13 : match ---------------------------------------------------------- *)

Theorem C13_pairs_equal : forall A (ltA rlt eqA : A -> A -> bool) v1 v2 i j,
  compares ltA rlt eqA (v1 ++ v2) -> In (i, j) (match_ ltA rlt eqA v1 v2) ->
  exists x y, nth_error v1 i = Some x /\ nth_error v2 j = Some y /\ equiv ltA x y.
Proof. exact @match_sound. Qed.
Print Assumptions C13_pairs_equal.

(* no position of v1 is used twice *)
Theorem C13_left_once : forall A (ltA rlt eqA : A -> A -> bool) v1 v2,
  NoDup (map fst (match_ ltA rlt eqA v1 v2)).
Proof. exact @match_nodup. Qed.
Print Assumptions C13_left_once.

(* vectors without repeated values: exactly the equal pairs *)
Theorem C13_exact : forall A (ltA rlt eqA : A -> A -> bool) v1 v2 i j,
  weak_order ltA -> compares ltA rlt eqA (v1 ++ v2) -> all_different ltA v1 -> all_different ltA v2 ->
  (In (i, j) (match_ ltA rlt eqA v1 v2) <->
   exists x y, nth_error v1 i = Some x /\ nth_error v2 j = Some y /\ equiv ltA x y).
Proof.
  intros A ltA rlt eqA v1 v2 i j W C D1 D2. split; [apply match_sound; exact C|].
  intros (x & y & H1 & H2 & H3). eapply match_complete; eassumption.
Qed.
Print Assumptions C13_exact.

(* below 64 elements: every v1[i] with its first partner *)
Theorem C13_small_first : forall A (ltA rlt eqA : A -> A -> bool) v1 v2 i j,
  Nat.min (length v1) (length v2) < 64 ->
  (In (i, j) (match_ ltA rlt eqA v1 v2) <->
   exists x y, nth_error v1 i = Some x /\ nth_error v2 j = Some y /\ eqA y x = true /\
     forall j' y', j' < j -> nth_error v2 j' = Some y' -> eqA y' x = false).
Proof. exact @match_small. Qed.
Print Assumptions C13_small_first.

(* from 64 elements on the documented "first value of v2" rule fails *)
Theorem C13_large_first_refuted :
  exists v1 v2 i j j' x, In (i, j) (match_ Z.ltb Z.ltb Z.eqb v1 v2) /\ j' < j /\
    nth_error v1 i = Some x /\ nth_error v2 j' = Some x.
Proof.
  exists (repeat 7%Z 64), (repeat 7%Z 64), 1, 1, 0, 7%Z.
  split; [|repeat split; lia]. vm_compute. auto.
Qed.
Print Assumptions C13_large_first_refuted.

(* adding an element that matches nothing changes which pairs are returned *)
Theorem C13_size_dependent_refuted :
  exists v1 v2 x, Forall (fun y => y <> x) (v1 ++ v2) /\
    match_ Z.ltb Z.ltb Z.eqb v1 v2 <> match_ Z.ltb Z.ltb Z.eqb (v1 ++ [x]) v2.
Proof.
  exists (repeat 7%Z 63), (repeat 7%Z 64), 8%Z. split.
  - vm_compute. repeat constructor; discriminate.
  - vm_compute. discriminate.
Qed.
Print Assumptions C13_size_dependent_refuted.

(* from 64 elements on a NaN is paired with a number *)
Theorem C13_nan_refuted :
  exists v1 v2 i j x y, In (i, j) (match_ fl_less fl_lt fl_eq v1 v2) /\
    nth_error v1 i = Some x /\ nth_error v2 j = Some y /\ fl_eq x y = false.
Proof.
  exists (repeat NaN 64), (repeat (Num 0) 64), 0, 0, NaN, (Num 0). split; [vm_compute; auto|repeat split].
Qed.
Print Assumptions C13_nan_refuted.

Lemma Z_compares l : compares Z.ltb Z.ltb Z.eqb l.
Proof. intros x y _ _. split; [reflexivity|]. destruct (Z.eqb_spec x y); lia. Qed.
Example C13_ex : match_ Z.ltb Z.ltb Z.eqb [4;8;1]%Z [1;2;4]%Z = [(0,2);(2,0)].
Proof. reflexivity. Qed.
Definition zs (n : nat) (d : Z) : list Z := map (fun i => (d * Z.of_nat i)%Z) (seq 0 n).
Example C13_ex_large : match_ Z.ltb Z.ltb Z.eqb (zs 70 3) (zs 70 50) = [(0,0);(50,3)] /\ 64 <= 70.
Proof. split; [vm_compute; reflexivity|lia]. Qed.

(* ---- C14 : set operations ------------------------------------------------- *)

(* sorted inputs: sorted result, multiplicities are the minimum / maximum *)
Theorem C14_intersection_sorted : forall A (ltA : A -> A -> bool) v1 v2,
  weak_order ltA -> ascending ltA v1 -> ascending ltA v2 ->
  ascending ltA (set_intersection_sorted ltA v1 v2) /\
  (forall z, In z (set_intersection_sorted ltA v1 v2) -> In z v1) /\
  forall z, count_equiv ltA z (set_intersection_sorted ltA v1 v2) =
            Nat.min (count_equiv ltA z v1) (count_equiv ltA z v2).
Proof.
  intros A ltA v1 v2 W O1 O2. split; [apply inter_asc; assumption|]. split; [apply inter_incl|].
  intros z. apply inter_count; assumption.
Qed.
Print Assumptions C14_intersection_sorted.

Theorem C14_union_sorted : forall A (ltA : A -> A -> bool) v1 v2,
  weak_order ltA -> ascending ltA v1 -> ascending ltA v2 ->
  ascending ltA (set_union_sorted ltA v1 v2) /\
  (forall z, In z (set_union_sorted ltA v1 v2) -> In z v1 \/ In z v2) /\
  forall z, count_equiv ltA z (set_union_sorted ltA v1 v2) =
            Nat.max (count_equiv ltA z v1) (count_equiv ltA z v2).
Proof.
  intros A ltA v1 v2 W O1 O2. split; [apply union_asc; assumption|]. split; [apply union_incl|].
  intros z. apply union_count; assumption.
Qed.
Print Assumptions C14_union_sorted.

(* arbitrary inputs *)
Theorem C14_intersection : forall A (ltA : A -> A -> bool) v1 v2, weak_order ltA ->
  ascending ltA (set_intersection ltA v1 v2) /\
  (forall z, In z (set_intersection ltA v1 v2) -> In z v1) /\
  forall z, count_equiv ltA z (set_intersection ltA v1 v2) =
            Nat.min (count_equiv ltA z v1) (count_equiv ltA z v2).
Proof.
  intros A ltA v1 v2 W. unfold set_intersection, inplace_sort.
  pose proof (stable_sort_perm ltA v1) as P1. pose proof (stable_sort_perm ltA v2) as P2.
  split; [apply inter_asc; try assumption; apply stable_sort_ascending; exact W|]. split.
  - intros z Hz. apply inter_incl in Hz. eapply Permutation_in; eassumption.
  - intros z. rewrite inter_count by (try assumption; apply stable_sort_ascending; exact W).
    rewrite (count_perm ltA z _ _ P1), (count_perm ltA z _ _ P2). reflexivity.
Qed.
Print Assumptions C14_intersection.

Theorem C14_union : forall A (ltA : A -> A -> bool) v1 v2, weak_order ltA ->
  ascending ltA (set_union ltA v1 v2) /\
  (forall z, In z (set_union ltA v1 v2) -> In z v1 \/ In z v2) /\
  forall z, count_equiv ltA z (set_union ltA v1 v2) =
            Nat.max (count_equiv ltA z v1) (count_equiv ltA z v2).
Proof.
  intros A ltA v1 v2 W. unfold set_union, inplace_sort.
  pose proof (stable_sort_perm ltA v1) as P1. pose proof (stable_sort_perm ltA v2) as P2.
  split; [apply union_asc; try assumption; apply stable_sort_ascending; exact W|]. split.
  - intros z Hz. apply union_incl in Hz. destruct Hz; [left|right]; eapply Permutation_in; eassumption.
  - intros z. rewrite union_count by (try assumption; apply stable_sort_ascending; exact W).
    rewrite (count_perm ltA z _ _ P1), (count_perm ltA z _ _ P2). reflexivity.
Qed.
Print Assumptions C14_union.

(* seen as sets of values *)
Theorem C14_as_sets : forall A (ltA : A -> A -> bool) v1 v2 z, weak_order ltA ->
  ((exists y, In y (set_intersection ltA v1 v2) /\ equiv ltA z y) <->
   (exists y, In y v1 /\ equiv ltA z y) /\ (exists y, In y v2 /\ equiv ltA z y)) /\
  ((exists y, In y (set_union ltA v1 v2) /\ equiv ltA z y) <->
   (exists y, In y v1 /\ equiv ltA z y) \/ (exists y, In y v2 /\ equiv ltA z y)).
Proof.
  intros A ltA v1 v2 z W. rewrite <- !(count_pos ltA).
  destruct (C14_intersection A ltA v1 v2 W) as (_ & _ & ->). destruct (C14_union A ltA v1 v2 W) as (_ & _ & ->).
  split; lia.
Qed.
Print Assumptions C14_as_sets.

Example C14_ex : set_intersection Z.ltb [5;1;2;2]%Z [2;2;2;5;9]%Z = [2;2;5]%Z /\
  set_union Z.ltb [5;1;2;2]%Z [2;2;2;5;9]%Z = [1;2;2;2;5;9]%Z.
Proof. split; reflexivity. Qed.

(* ---- C15 : binary searches ------------------------------------------------ *)

Theorem C15_lower_bound : forall A (ltA : A -> A -> bool) v x, weak_order ltA -> ascending ltA v ->
  exists o, lower_bound ltA v x = Ok o /\ last_le ltA v x o.
Proof. intros A ltA v x W. exact (lower_bound_ok ltA W v x). Qed.
Print Assumptions C15_lower_bound.

Theorem C15_upper_bound : forall A (ltA : A -> A -> bool) v x, weak_order ltA -> ascending ltA v ->
  exists o, upper_bound ltA v x = Ok o /\ first_gt ltA v x o.
Proof. intros A ltA v x W. exact (upper_bound_ok ltA W v x). Qed.
Print Assumptions C15_upper_bound.

Theorem C15_bounds : forall A (ltA : A -> A -> bool) v x, weak_order ltA -> ascending ltA v ->
  exists a b, bounds1 ltA v x = Ok (a, b) /\ last_le ltA v x a /\ first_gt ltA v x b.
Proof. intros A ltA v x W. exact (bounds1_ok ltA W v x). Qed.
Print Assumptions C15_bounds.

Theorem C15_bounds_interval : forall A (ltA : A -> A -> bool) v x1 x2,
  weak_order ltA -> ascending ltA v -> ltA x2 x1 = false ->
  exists a b, bounds2 ltA v x1 x2 = Ok (a, b) /\ last_le ltA v x1 a /\ first_gt ltA v x2 b.
Proof. intros A ltA v x1 x2 W. exact (bounds2_ok ltA W v x1 x2). Qed.
Print Assumptions C15_bounds_interval.

(* [a, b) are the positions equal to x; npos is only returned when all elements are
   smaller *)
Theorem C15_equal_range : forall A (ltA : A -> A -> bool) v x, weak_order ltA -> ascending ltA v ->
  exists o, equal_range ltA v x = Ok o /\
    match o with
    | Some (a, b) => a <= b <= length v /\ forall i y, nth_error v i = Some y -> (a <= i < b <-> equiv ltA x y)
    | None => forall i y, nth_error v i = Some y -> ltA y x = true
    end.
Proof. intros A ltA v x W. exact (equal_range_ok ltA W v x). Qed.
Print Assumptions C15_equal_range.

(* the documentation says: first and last index (closed), npos if x is absent *)
Theorem C15_equal_range_doc_refuted :
  (exists v x a b y, ascending Z.ltb v /\ equal_range Z.ltb v x = Ok (Some (a, b)) /\
     nth_error v b = Some y /\ y <> x) /\
  (exists v x a b, ascending Z.ltb v /\ ~ In x v /\ equal_range Z.ltb v x = Ok (Some (a, b))).
Proof.
  assert (O : ascending Z.ltb [2;2;5;9;9;9;12;50]%Z).
  { unfold ascending. repeat (rewrite ordered_cons; split; [cbn; intros y Hy; lia|]). apply ordered_nil. }
  split.
  - exists [2;2;5;9;9;9;12;50]%Z, 9%Z, 3, 6, 12%Z. split; [exact O|]. repeat split. discriminate.
  - exists [2;2;5;9;9;9;12;50]%Z, 7%Z, 3, 3. split; [exact O|]. split; [simpl; lia|reflexivity].
Qed.
Print Assumptions C15_equal_range_doc_refuted.

(* vector of integers, non-negative rational argument num/den: still right *)
Theorem C15_int_argument : forall v num den, ascending Z.ltb v -> (0 <= num)%Z ->
  exists o, lower_bound_int v num den = Ok o /\
    match o with
    | None => forall i y, nth_error v i = Some y -> (num < y * Zpos den)%Z
    | Some k => (exists y, nth_error v k = Some y /\ (y * Zpos den <= num)%Z) /\
                forall i y, k < i -> nth_error v i = Some y -> (num < y * Zpos den)%Z
    end.
Proof.
  intros v num den O Hn. destruct (lower_bound_ok Z.ltb Z_weak_order v (to_int num den) O) as (o & E & H).
  exists o. split; [exact E|].
  assert (G : forall y, (Z.ltb (to_int num den) y = true <-> num < y * Zpos den)%Z).
  { intros y. unfold to_int. rewrite Z.quot_div_nonneg by lia. rewrite Z.ltb_lt.
    rewrite (Z.mul_comm y). split; intros.
    - pose proof (Z.mul_succ_div_gt num (Zpos den) ltac:(lia)). nia.
    - apply Z.div_lt_upper_bound; lia. }
  destruct o as [k|]; cbn [last_le] in H.
  - destruct H as [(y & H1 & H2) H3]. split.
    + exists y. split; [exact H1|]. apply Z.nlt_ge. intros X. apply G in X. congruence.
    + intros i z Hi Hz. apply G. eapply H3; eassumption.
  - intros i y Hy. apply G. eapply H; eassumption.
Qed.
Print Assumptions C15_int_argument.

(* ... but a negative one is rounded up: lower_bound({-3,-2,-1}, -2.5) points to -2 *)
Theorem C15_int_argument_refuted :
  exists v num den k y, ascending Z.ltb v /\ lower_bound_int v num den = Ok (Some k) /\
    nth_error v k = Some y /\ (num < y * Zpos den)%Z.
Proof.
  exists [-3;-2;-1]%Z, (-5)%Z, 2%positive, 1, (-2)%Z. split; [|split; [reflexivity|split; [reflexivity|lia]]].
  unfold ascending. repeat (rewrite ordered_cons; split; [cbn; intros y Hy; lia|]). apply ordered_nil.
Qed.
Print Assumptions C15_int_argument_refuted.

Example C15_ex : lower_bound Z.ltb [2;2;5;9;9]%Z 5%Z = Ok (Some 2) /\ upper_bound Z.ltb [2;2;5;9;9]%Z 2%Z = Ok (Some 2) /\
  lower_bound Z.ltb [2;2;5;9;9]%Z 1%Z = Ok None /\ bounds1 Z.ltb [2;2;5;9;9]%Z 9%Z = Ok (Some 4, None) /\
  bounds2 Z.ltb [2;2;5;9;9]%Z 2%Z 5%Z = Ok (Some 1, Some 3) /\ equal_range Z.ltb [2;2;5;9;9]%Z 9%Z = Ok (Some (3, 5)).
Proof. repeat split. Qed.

(* ---- C17 : sort ----------------------------------------------------------- *)

Theorem C17_sort_stable : forall A (ltA : A -> A -> bool) v,
  weak_order ltA -> stable_sorting ltA v (sort ltA v).
Proof. intros A ltA v W. exact (sort_stable ltA W v). Qed.
Print Assumptions C17_sort_stable.

(* no other list of indices is a stable sort *)
Theorem C17_stable_unique : forall A (ltA : A -> A -> bool) v r,
  weak_order ltA -> stable_sorting ltA v r -> r = sort ltA v.
Proof. intros A ltA v r W. exact (sort_unique ltA W v r). Qed.
Print Assumptions C17_stable_unique.

Theorem C17_inplace_sort : forall A (ltA : A -> A -> bool) v, weak_order ltA ->
  Permutation (inplace_sort ltA v) v /\ ascending ltA (inplace_sort ltA v).
Proof. intros A ltA v W. split; [apply stable_sort_perm|apply stable_sort_ascending; exact W]. Qed.
Print Assumptions C17_inplace_sort.

(* v[sort(v)] is what inplace_sort leaves *)
Theorem C17_agree : forall A (ltA : A -> A -> bool) v,
  map (nth_error v) (sort ltA v) = map Some (inplace_sort ltA v).
Proof. intros A ltA v. apply at_ids_values. apply at_sort. Qed.
Print Assumptions C17_agree.

(* floating point: the comparator is a strict weak order and NaNs go last *)
Theorem C17_float_order : weak_order fl_less.
Proof. exact fl_weak_order. Qed.
Print Assumptions C17_float_order.

Theorem C17_nan_last : forall v i j, i < j ->
  nth_error (inplace_sort fl_less v) i = Some NaN -> j < length v ->
  nth_error (inplace_sort fl_less v) j = Some NaN.
Proof.
  intros v i j Hij Hi Hj. destruct (C17_inplace_sort _ fl_less v fl_weak_order) as [P O].
  destruct (nth_error (inplace_sort fl_less v) j) as [[|z]|] eqn:E; [reflexivity| |].
  - specialize (O i j _ _ Hij Hi E). discriminate O.
  - apply nth_error_None in E. rewrite (Permutation_length P) in E. lia.
Qed.
Print Assumptions C17_nan_last.

(* descending order through comparator_greater also puts NaNs last *)
Theorem C17_greater_order : weak_order fl_greater.
Proof.
  split.
  - intros [|x] [|y]; simpl; intros; try congruence; lia.
  - intros [|x] [|y] [|z]; simpl; intros; try discriminate; auto; lia.
Qed.
Print Assumptions C17_greater_order.

Example C17_ex : sort fl_less [NaN; Num 3; Num 1; NaN; Num 3; Num 0] = [5;2;1;4;0;3].
Proof. reflexivity. Qed.

(* ---- C18 : is_sorted ------------------------------------------------------ *)

Theorem C18_is_sorted_strict : forall A (ltA : A -> A -> bool) v, weak_order ltA -> v <> [] ->
  exists b, is_sorted ltA v = Ok b /\ (b = true <-> strictly_ascending ltA v).
Proof. exact @is_sorted_strict. Qed.
Print Assumptions C18_is_sorted_strict.

(* sorted but with a repeated value: reported as not sorted *)
Theorem C18_after_sort_refuted : exists v, is_sorted Z.ltb (inplace_sort Z.ltb v) = Ok false.
Proof. exists [2;1;2]%Z. reflexivity. Qed.
Print Assumptions C18_after_sort_refuted.

Theorem C18_empty_refuted : forall A (ltA : A -> A -> bool), is_sorted ltA [] = UB.
Proof. reflexivity. Qed.
Print Assumptions C18_empty_refuted.

Example C18_ex : is_sorted Z.ltb [1;3;7]%Z = Ok true /\ is_sorted Z.ltb [1;7;3]%Z = Ok false.
Proof. split; reflexivity. Qed.

(* ---- C19 : reverse, shift, transpose -------------------------------------- *)

Theorem C19_reverse : forall A (v : list A),
  length (reverse v) = length v /\ reverse (reverse v) = v /\
  forall i, i < length v -> nth_error (reverse v) i = nth_error v (length v - 1 - i).
Proof. intros A v. split; [apply rev_length|]. split; [apply rev_involutive|]. intros i. apply reverse_nth. Qed.
Print Assumptions C19_reverse.

(* element i moves to position (i+n) mod size *)
Theorem C19_shift : forall A (v : list A) n, v <> [] -> (- two63 < n < two63)%Z ->
  exists r, inplace_shift v n = Ok r /\ length r = length v /\
    forall i, i < length v ->
      nth_error r (Z.to_nat ((Z.of_nat i + n) mod Z.of_nat (length v))) = nth_error v i.
Proof. exact @shift_ok. Qed.
Print Assumptions C19_shift.

Theorem C19_shift_inverse : forall A (v : list A) n r, v <> [] -> (- two63 < n < two63)%Z ->
  inplace_shift v n = Ok r -> inplace_shift r (- n) = Ok v.
Proof. exact @shift_inverse. Qed.
Print Assumptions C19_shift_inverse.

(* an empty vector: remainder by zero *)
Theorem C19_shift_empty_refuted : forall A n, inplace_shift (@nil A) n = UB.
Proof. intros A n. unfold inplace_shift. destruct (_ =? _)%Z; reflexivity. Qed.
Print Assumptions C19_shift_empty_refuted.

Theorem C19_transpose : forall A (v : vec A) d0 d1, wf v -> v_dims v = [d0; d1] ->
  exists r, transpose v = Ok r /\ v_dims r = [d1; d0] /\ wf r /\
    forall i j, i < d1 -> j < d0 -> elem r [i; j] = elem v [j; i].
Proof. exact @transpose_spec. Qed.
Print Assumptions C19_transpose.

Theorem C19_transpose_involutive : forall A (v : vec A) d0 d1 r, wf v -> v_dims v = [d0; d1] ->
  transpose v = Ok r -> transpose r = Ok v.
Proof.
  intros A v d0 d1 r W D E. destruct (transpose_spec v d0 d1 W D) as (r1 & E1 & D1 & W1 & N1).
  assert (r1 = r) by congruence. subst r1.
  destruct (transpose_spec r d1 d0 W1 D1) as (w & E2 & D2 & W2 & N2). rewrite E2. f_equal.
  eapply vec_eq_elem; try eassumption. intros i j Hi Hj. rewrite N2, N1 by assumption. reflexivity.
Qed.
Print Assumptions C19_transpose_involutive.

Example C19_ex : inplace_shift [1;2;3;4] 5 = Ok [4;1;2;3] /\ inplace_shift [1;2;3;4] (-1) = Ok [2;3;4;1] /\
  transpose (mk_vec [2;3] [1;2;3;4;5;6]) = Ok (mk_vec [3;2] [1;4;2;5;3;6]).
Proof. repeat split. Qed.

(* ---- C54 : is_any_of ------------------------------------------------------ *)

Theorem C54_is_any_of : forall A (eqA : A -> A -> bool) v1 v2,
  length (is_any_of eqA v1 v2) = length v1 /\
  forall i x, nth_error v1 i = Some x ->
    exists b, nth_error (is_any_of eqA v1 v2) i = Some b /\
      (b = true <-> exists j y, nth_error v2 j = Some y /\ eqA x y = true).
Proof.
  intros A eqA v1 v2. split; [apply map_length|]. intros i x Hx. unfold is_any_of.
  rewrite nth_error_map, Hx. eexists. split; [reflexivity|]. unfold is_any_of1. rewrite existsb_exists. split.
  - intros (y & Hy & E). apply In_nth_error in Hy. destruct Hy as [j Hj]. eauto.
  - intros (j & y & Hy & E). exists y. split; [eapply nth_error_In; exact Hy|exact E].
Qed.
Print Assumptions C54_is_any_of.
Example C54_ex : is_any_of Z.eqb [1;2;3]%Z [3;1]%Z = [true;false;true].
Proof. reflexivity. Qed.
