From Coq Require Import QArith.
From Verif Require Import Base IndexSpec VecModel VecSpec OrderModel OrderSpec ReduceModel ReduceSpec
  ReduceProofs ReduceProofs2 ReduceProofs3.
Local Open Scope nat_scope.

(* ---- C22 : reductions along one dimension ------------------------------------ *)

(* the result has the other dimensions, and each of its elements is f of the slice along
   [dim] at the same other subscripts, in order *)
Theorem C22_reduce : forall A B (f : list A -> outcome B) (v : vec A) dim n r,
  wf v -> nth_error (v_dims v) dim = Some n ->
  (N.of_nat (nprod (without_dim dim (v_dims v))) <= max_elems)%N ->
  reduce_dim f dim v = Ok r ->
  v_dims r = without_dim dim (v_dims v) /\ wf r /\
  forall ids, in_range (v_dims r) ids ->
    exists s y, is_slice v dim n ids s /\ f s = Ok y /\ elem r ids = Some y.
Proof. exact @reduce_result. Qed.
Print Assumptions C22_reduce.

(* it succeeds whenever f accepts every slice *)
Theorem C22_reduce_defined : forall A B (f : list A -> outcome B) (v : vec A) dim n,
  wf v -> nth_error (v_dims v) dim = Some n ->
  (N.of_nat (nprod (without_dim dim (v_dims v))) <= max_elems)%N ->
  (forall ids s, in_range (without_dim dim (v_dims v)) ids -> is_slice v dim n ids s -> exists y, f s = Ok y) ->
  exists r, reduce_dim f dim v = Ok r.
Proof. exact @reduce_defined. Qed.
Print Assumptions C22_reduce_defined.

(* each element belongs to exactly one slice, at one place *)
Theorem C22_slices_partition : forall dims dim n ids,
  nth_error dims dim = Some n -> in_range dims ids ->
  exists rest j, in_range (without_dim dim dims) rest /\ j < n /\ with_sub dim j rest = ids /\
    forall rest' j', in_range (without_dim dim dims) rest' -> with_sub dim j' rest' = ids -> rest' = rest /\ j' = j.
Proof. exact slices_partition. Qed.
Print Assumptions C22_slices_partition.

(* total(partial_total(dim, v)) = total(v) *)
Theorem C22_partial_total : forall (v r : vec Z) dim n, wf v -> nth_error (v_dims v) dim = Some n ->
  (N.of_nat (nprod (without_dim dim (v_dims v))) <= max_elems)%N ->
  partial_total dim v = Ok r -> zsum (v_data r) = zsum (v_data v).
Proof. exact partial_total_sum. Qed.
Print Assumptions C22_partial_total.

Theorem C22_bad_dimension : forall A B (f : list A -> outcome B) (v : vec A) dim,
  v_rank v <= dim -> reduce_dim f dim v = CheckFail.
Proof.
  intros A B f v dim H. unfold reduce_dim. destruct (Nat.ltb_spec dim (v_rank v)); [lia|reflexivity].
Qed.
Print Assumptions C22_bad_dimension.

(* total, mean, count, and the sums behind weighted_mean *)
Theorem C22_total : forall v, total v = zsum v.
Proof. exact total_zsum. Qed.
Print Assumptions C22_total.
Theorem C22_mean : forall v, v <> [] ->
  exists m, mean v = Some m /\ (m * inject_Z (Z.of_nat (length v)) == qsum v)%Q.
Proof. exact mean_ok. Qed.
Print Assumptions C22_mean.
Theorem C22_count : forall v, count v = length (where_ v).
Proof. exact count_where. Qed.
Print Assumptions C22_count.
Theorem C22_weighted_sums : forall dims v w, length w = length v ->
  exists t tw, weighted_sums dims dims v w = Ok (t, tw) /\
    (t == qsum (map (fun xy => fst xy * snd xy)%Q (combine v w)))%Q /\ (tw == qsum w)%Q.
Proof. exact weighted_sums_ok. Qed.
Print Assumptions C22_weighted_sums.
Theorem C22_weighted_shape : forall vd wd v w, vd <> wd -> weighted_sums vd wd v w = CheckFail.
Proof. intros. unfold weighted_sums. destruct (list_eq_dec Nat.eq_dec vd wd); [contradiction|reflexivity]. Qed.
Print Assumptions C22_weighted_shape.

(* a slice of an empty dimension has no elements: partial_mean gives NaN (None) there,
   partial_min and partial_max abort *)
Theorem C22_empty_slices_abort :
  reduce_dim (fun l => min_ fl_less l) 0 (mk_vec [0; 2] []) = CheckFail /\
  reduce_dim (fun l => Ok (mean l)) 0 (mk_vec [0; 2] []) = Ok (mk_vec [2] [None; None]).
Proof. split; vm_compute; reflexivity. Qed.
Print Assumptions C22_empty_slices_abort.

Example C22_ex :
  let v := mk_vec [2; 3; 2] [1; 2; 3; 4; 5; 6; 7; 8; 9; 10; 11; 12]%Z in
  partial_total 0 v = Ok (mk_vec [3; 2] [8; 10; 12; 14; 16; 18]%Z) /\
  partial_total 1 v = Ok (mk_vec [2; 2] [9; 12; 27; 30]%Z) /\
  partial_total 2 v = Ok (mk_vec [2; 3] [3; 7; 11; 15; 19; 23]%Z) /\
  partial_total 3 v = CheckFail /\ with_sub 1 2 [0; 1] = [0; 2; 1] /\
  mean [1; 2; 6]%Q = Some (9 / 3)%Q /\ mean [] = None /\ count [true; false; true] = 2.
Proof. repeat split; vm_compute; reflexivity. Qed.

(* ---- C23 : median and percentile ---------------------------------------------- *)

(* the element of a given rank is determined up to equivalence *)
Theorem C23_order_stat_unique : forall A (lt : A -> A -> bool), weak_order lt ->
  forall v k x y, order_stat lt v k x -> order_stat lt v k y -> OrderSpec.equiv lt x y.
Proof. exact @order_stat_unique. Qed.
Print Assumptions C23_order_stat_unique.

(* elements that are not floating-point numbers *)
Theorem C23_median_plain : forall A (lt : A -> A -> bool), weak_order lt ->
  forall v, v <> [] -> exists x, median_plain lt v = Ok x /\ order_stat lt v (length v / 2) x.
Proof. exact @median_plain_ok. Qed.
Print Assumptions C23_median_plain.

(* NaNs are ignored *)
Theorem C23_median : forall v, numbers v <> [] ->
  exists z, median v = Ok (Num z) /\ order_stat Z.ltb (numbers v) (length (numbers v) / 2) z.
Proof. exact median_ok. Qed.
Print Assumptions C23_median.
Theorem C23_median_nan : forall v, v <> [] -> numbers v = [] -> median v = Ok NaN.
Proof. exact median_nan. Qed.
Print Assumptions C23_median_nan.

Theorem C23_percentile : forall v u, numbers v <> [] -> (u < 1)%Q \/ ~ In NaN v ->
  exists z, percentile v u = Ok (Num z) /\ order_stat Z.ltb (numbers v) (rank_of (length (numbers v)) u) z.
Proof. exact percentile_ok. Qed.
Print Assumptions C23_percentile.

(* with a NaN in the data, percentile(v, 1.0) is NaN and not the largest number *)
Theorem C23_percentile_one_refuted : forall v u, numbers v <> [] -> (1 <= u)%Q -> In NaN v ->
  percentile v u = Ok NaN.
Proof. exact percentile_nan. Qed.
Print Assumptions C23_percentile_one_refuted.

Theorem C23_empty : forall u, median [] = CheckFail /\ percentile [] u = CheckFail.
Proof. intros. split; reflexivity. Qed.
Print Assumptions C23_empty.

(* weighted_percentile: the weight strictly below the answer is less than the fraction p
   of the total, the weight up to it is at least that fraction *)
Theorem C23_weighted_percentile : forall dims v w p, v <> [] -> length w = length v ->
  (forall q, In (Some q) w -> (0 <= q)%Q) -> (0 < p <= 1)%Q -> (0 < weight_of (fun _ => true) v w)%Q ->
  exists z, weighted_percentile dims dims v w p = Ok (Num z) /\ In (Num z) v /\
    (weight_of (fun y => y <? z)%Z v w < p * weight_of (fun _ => true) v w)%Q /\
    (p * weight_of (fun _ => true) v w <= weight_of (fun y => y <=? z)%Z v w)%Q.
Proof. exact weighted_percentile_ok. Qed.
Print Assumptions C23_weighted_percentile.
Theorem C23_weighted_percentile_no_weight : forall dims v w p, v <> [] -> length w = length v ->
  (weight_of (fun _ => true) v w == 0)%Q -> weighted_percentile dims dims v w p = Ok NaN.
Proof. exact weighted_percentile_zero. Qed.
Print Assumptions C23_weighted_percentile_no_weight.

(* with equal weights and an even number of elements, the weighted median is the element
   just below the one median returns *)
Theorem C23_weighted_median_differs_refuted : exists v w,
  (forall q, In q w -> q = Some 1%Q) /\ length w = length v /\
  weighted_percentile [length v] [length v] v w (1 # 2) = Ok (Num 1) /\ median v = Ok (Num 2).
Proof.
  exists [Num 2; Num 1], [Some 1%Q; Some 1%Q]. split; [|split; [|split; vm_compute; reflexivity]].
  - intros q [<-|[<-|[]]]; reflexivity.
  - reflexivity.
Qed.
Print Assumptions C23_weighted_median_differs_refuted.

Example C23_ex :
  let v := [Num 5; NaN; Num 1; Num 3; Num 3; Num 9] in
  median v = Ok (Num 3) /\ percentile v (1 # 10) = Ok (Num 1) /\ percentile v (9 # 10) = Ok (Num 9) /\
  percentile v 1 = Ok NaN /\ percentile [Num 5; Num 1] 1 = Ok (Num 5) /\ percentile [Num 5; Num 1] 7 = Ok (Num 5) /\
  numbers v = [5; 1; 3; 3; 9]%Z /\ rank_of 5 (9 # 10) = 4 /\
  weighted_percentile [6] [6] v [Some 1; Some 50; Some 4; Some 1; None; Some 2]%Q (1 # 2) = Ok (Num 1) /\
  weighted_percentile [6] [6] v [Some 1; Some 50; Some 4; Some 1; None; Some 2]%Q (3 # 4) = Ok (Num 5) /\
  median_plain Z.ltb [4; 2; 8; 6]%Z = Ok 6%Z.
Proof. repeat split; vm_compute; reflexivity. Qed.

(* ---- C24 : minimum and maximum -------------------------------------------------- *)
Theorem C24_min : forall v, v <> [] ->
  (numbers v = [] -> min_ fl_less v = Ok (0, NaN)) /\
  (numbers v <> [] -> exists i z, min_ fl_less v = Ok (i, Num z) /\ smallest_at v i z /\ first_at v i z).
Proof. exact min_float. Qed.
Print Assumptions C24_min.
Theorem C24_max : forall v, v <> [] ->
  (numbers v = [] -> min_ fl_greater v = Ok (0, NaN)) /\
  (numbers v <> [] -> exists i z, min_ fl_greater v = Ok (i, Num z) /\ largest_at v i z /\ first_at v i z).
Proof. exact max_float. Qed.
Print Assumptions C24_max.

(* minmax: the first smallest element, the LAST largest element *)
Theorem C24_minmax : forall v, v <> [] ->
  (numbers v = [] -> minmax_ v = Ok ((0, NaN), (0, NaN))) /\
  (numbers v <> [] -> exists i z j y, minmax_ v = Ok ((i, Num z), (j, Num y)) /\
     smallest_at v i z /\ first_at v i z /\ largest_at v j y /\ last_at v j y).
Proof. exact minmax_ok. Qed.
Print Assumptions C24_minmax.

(* any other element type *)
Theorem C24_min_plain : forall A (lt : A -> A -> bool), weak_order lt -> forall v, v <> [] ->
  exists i x, min_ lt v = Ok (i, x) /\ nth_error v i = Some x /\
  forall j y, nth_error v j = Some y -> lt y x = false /\ (j < i -> lt x y = true).
Proof. exact @min_ok. Qed.
Print Assumptions C24_min_plain.

(* min, min_id, max and max_id are the two parts *)
Theorem C24_values_and_ids : forall v i x, 
  (min_ fl_less v = Ok (i, x) -> min_id v = Ok i /\ min_val v = Ok x /\ nth_error v i = Some x) /\
  (min_ fl_greater v = Ok (i, x) -> max_id v = Ok i /\ max_val v = Ok x /\ nth_error v i = Some x).
Proof.
  intros v i x. unfold min_id, min_val, max_id, max_val.
  split; intros H; rewrite H; cbn [omap obind fst snd]; repeat split; destruct v as [|a v]; try discriminate H.
  - destruct (min_ok fl_less fl_order (a :: v) ltac:(discriminate)) as (i' & x' & E & N & _). rewrite E in H. injection H as <- <-. exact N.
  - destruct (min_ok fl_greater fl_greater_order (a :: v) ltac:(discriminate)) as (i' & x' & E & N & _). rewrite E in H. injection H as <- <-. exact N.
Qed.
Print Assumptions C24_values_and_ids.

(* minmax_ids(v).second is not max_id(v) when the largest value is repeated *)
Theorem C24_minmax_tie_refuted : exists v i r,
  max_id v = Ok i /\ omap (fun p => fst (snd p)) (minmax_ v) = Ok r /\ r <> i.
Proof. exists [Num 1; Num 2; Num 2], 1, 2. repeat split; discriminate. Qed.
Print Assumptions C24_minmax_tie_refuted.

Theorem C24_empty : min_val [] = CheckFail /\ max_val [] = CheckFail /\ minmax_ [] = CheckFail.
Proof. repeat split. Qed.
Print Assumptions C24_empty.

(* min(v1, v2) and max(v1, v2), element by element, for elements of one type *)
Theorem C24_min_pairs : forall v1 v2 dims, length v2 = length v1 ->
  min_pairs Z.ltb (fun x => x) dims dims v1 v2 = Ok (map (fun p => Z.min (fst p) (snd p)) (combine v1 v2)) /\
  max_pairs Z.ltb (fun x => x) dims dims v1 v2 = Ok (map (fun p => Z.max (fst p) (snd p)) (combine v1 v2)).
Proof. exact min_pairs_ok. Qed.
Print Assumptions C24_min_pairs.
Theorem C24_min_pairs_shape : forall (lt : Z -> Z -> bool) (d1 d2 : list nat) (v1 v2 : list Z), d1 <> d2 ->
  min_pairs lt (fun x => x) d1 d2 v1 v2 = CheckFail /\ max_pairs lt (fun x => x) d1 d2 v1 v2 = CheckFail.
Proof.
  intros lt d1 d2 v1 v2 H. unfold min_pairs, max_pairs. destruct (list_eq_dec Nat.eq_dec d1 d2); [contradiction|split; reflexivity].
Qed.
Print Assumptions C24_min_pairs_shape.

(* with NaN the answer depends on the order of the arguments *)
Theorem C24_min_pairs_nan_refuted : exists x,
  min_pairs fl_lt (fun x => x) [1] [1] [NaN] [x] = Ok [NaN] /\
  min_pairs fl_lt (fun x => x) [1] [1] [x] [NaN] = Ok [x] /\ x <> NaN.
Proof. exists (Num 1). repeat split; discriminate. Qed.
Print Assumptions C24_min_pairs_nan_refuted.

(* min(1, {0.5}) = 0 : the result takes the type of the first argument *)
Theorem C24_min_conversion_refuted : exists (a : Z) (v2 : list Q) (r : list Z),
  min_scalar_vec (fun x y => negb (Qle_bool y x)) (fun q => Z.quot (Qnum q) (Zpos (Qden q))) (inject_Z a) v2 = r /\
  map inject_Z r <> map (fun b => Qred b) v2 /\ (forall b, In b v2 -> (b < inject_Z a)%Q).
Proof.
  exists 1%Z, [(1 # 2)%Q], [0%Z]. split; [vm_compute; reflexivity|]. split; [discriminate|].
  intros b [<-|[]]. reflexivity.
Qed.
Print Assumptions C24_min_conversion_refuted.

Example C24_ex :
  let v := [NaN; Num 4; Num 2; Num 7; NaN; Num 2; Num 7] in
  min_id v = Ok 2 /\ min_val v = Ok (Num 2) /\ max_id v = Ok 3 /\ max_val v = Ok (Num 7) /\
  minmax_ v = Ok ((2, Num 2), (6, Num 7)) /\ minmax_ [NaN; NaN] = Ok ((0, NaN), (0, NaN)) /\
  min_pairs Z.ltb (fun x => x) [2] [2] [1; 5]%Z [3; 2]%Z = Ok [1; 2]%Z /\
  max_pairs Z.ltb (fun x => x) [2] [2] [1; 5]%Z [3; 2]%Z = Ok [3; 5]%Z.
Proof. repeat split; vm_compute; reflexivity. Qed.
