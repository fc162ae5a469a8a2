(* Property theorems C06, C07, C20, C21, C52, C53: shapes of owning vectors. *)
From Verif Require Import Base IndexModel IndexSpec VecModel VecSpec VecProofs VecProofs2.
From Coq Require Import NArith.

(* ---- C06 : number of elements = product of dimensions --------------------- *)

(* a freshly declared vector satisfies the invariant *)
Theorem C06_fresh : forall A n, 0 < n -> good (@vec_default A n).
Proof.
  intros A n H. split; [apply wf_default; lia|]. destruct n; [lia|discriminate].
Qed.
Print Assumptions C06_fresh.

(* every program made of safe operations keeps it *)
Theorem C06_size_is_product : forall A (dflt : A) p st st',
  Forall good st -> Forall op_safe p -> run_ops dflt st p = Ok st' ->
  Forall (fun v => v_size v = nprod (v_dims v)) st'.
Proof.
  intros A dflt p st st' H1 H2 H3. pose proof (run_ops_good dflt p st st' H1 H2 H3) as H.
  eapply Forall_impl; [|exact H]. intros v [[W _] _]. exact W.
Qed.
Print Assumptions C06_size_is_product.

(* the documented "moved-from vector becomes empty" fails for move assignment *)
Theorem C06_move_assign_refuted :
  exists st st' (v : vec nat), Forall good st /\ run_ops 0 st [OpMoveAssign 1 0] = Ok st' /\
    In v st' /\ v_size v <> nprod (v_dims v).
Proof.
  exists [mk_vec [2] [7; 8]; vec_default 1], [mk_vec [2] []; mk_vec [2] [7; 8]], (mk_vec [2] []).
  split; [|split; [reflexivity|split; [simpl; auto|vm_compute; discriminate]]].
  repeat constructor; vm_compute; congruence.
Qed.
Print Assumptions C06_move_assign_refuted.

(* dimensions whose product is a multiple of 2^64 are accepted without storage *)
Theorem C06_overflow_refuted : forall A (dflt : A),
  exists d, vec_ctor dflt [d; d] = Ok (mk_vec [d; d] []) /\ 0 < d * d.
Proof. exact @overflow_ctor. Qed.
Print Assumptions C06_overflow_refuted.

Theorem C06_reform_overflow_refuted : forall A (v : vec A), v_data v = [] ->
  exists d, reform v [d; d] = Ok (mk_vec [d; d] []) /\ 0 < d * d.
Proof. exact @overflow_reform. Qed.
Print Assumptions C06_reform_overflow_refuted.

(* repeated indices given to inplace_remove *)
Theorem C06_remove_repeated_refuted :
  exists (v v' : vec nat) ids, good v /\ inplace_remove v ids = Ok v' /\
    v_size v' <> nprod (v_dims v').
Proof.
  exists (mk_vec [5] [10;11;12;13;14]), (mk_vec [2] [10;13;14]), [1;1;2].
  split; [|split; [reflexivity|vm_compute; discriminate]]. repeat split; vm_compute; congruence.
Qed.
Print Assumptions C06_remove_repeated_refuted.

Example C06_ex :
  run_ops 0 [vec_default 2; vec_default 1]
    [OpIlist 0 2 [[1;2];[3;4];[5;6]]; OpCtor 1 [2]; OpPushVec 0 1; OpRemove 0 [2;0];
     OpTranspose 0 0; OpAppend 1 0 0; OpClear 0] = CheckFail.
Proof. reflexivity. Qed.
Example C06_ex2 :
  run_ops 0 [vec_default 2; vec_default 1]
    [OpIlist 0 2 [[1;2];[3;4];[5;6]]; OpCtor 1 [2]; OpPushVec 0 1; OpRemove 0 [2;0];
     OpTranspose 0 0] = Ok [mk_vec [2;2] [3;0;4;0]; mk_vec [2] [0;0]].
Proof. reflexivity. Qed.
Example C06_ex2_safe : Forall op_safe
    [OpIlist 0 2 [[1;2];[3;4];[5;6]]; OpCtor 1 [2]; OpPushVec 0 1; OpRemove 0 [2;0];
     OpTranspose 0 0].
Proof. repeat constructor; try (vm_compute; congruence); simpl; intros H; intuition discriminate. Qed.

(* ---- C07 : push_back of slices -------------------------------------------- *)

(* pushing onto a non-empty vector *)
Theorem C07_push_scalar : forall A (v : vec A) x d, wf v -> v_dims v = [d] ->
  (N.of_nat d < max_elems)%N ->
  push_back_scalar v x = Ok (mk_vec [d + 1] (v_data v ++ [x])).
Proof. exact @push_scalar_ok. Qed.
Print Assumptions C07_push_scalar.

Theorem C07_push_slice : forall A (v t v' : vec A) d ds,
  wf v -> wf t -> v_dims v = d :: ds -> v_data v <> [] -> push_back_vec v t = Ok v' ->
  v_dims t = ds /\ v_dims v' = (d + 1) :: ds /\
  (forall i ids, i < d -> in_range ds ids -> elem v' (i :: ids) = elem v (i :: ids)) /\
  (forall ids, in_range ds ids -> elem v' (d :: ids) = elem t ids).
Proof. exact @push_vec_slices. Qed.
Print Assumptions C07_push_slice.

(* it succeeds exactly when the dimensions agree (as long as memory suffices) *)
Theorem C07_push_accepts : forall A (v t : vec A) d ds,
  wf v -> v_dims v = d :: ds -> v_data v <> [] -> v_dims t = ds ->
  (N.of_nat (v_size v + v_size t) <= max_elems)%N -> exists v', push_back_vec v t = Ok v'.
Proof. exact @push_vec_ok. Qed.
Print Assumptions C07_push_accepts.

Theorem C07_push_stops : forall A (v t : vec A) d ds,
  v_dims v = d :: ds -> v_data v <> [] -> v_dims t <> ds -> push_back_vec v t = CheckFail.
Proof. exact @push_vec_reject. Qed.
Print Assumptions C07_push_stops.

(* pushing onto an empty vector replaces its shape *)
Theorem C07_push_first : forall A (v t : vec A) d ds,
  v_dims v = d :: ds -> v_data v = [] ->
  push_back_vec v t = Ok (mk_vec (1 :: v_dims t) (v_data t)).
Proof. intros. eapply push_vec_empty; eassumption. Qed.
Print Assumptions C07_push_first.

(* so slices without elements are not counted *)
Theorem C07_push_empty_slice_refuted :
  exists v t v' : vec nat, wf v /\ wf t /\ v_dims v = 3 :: v_dims t /\
    push_back_vec v t = Ok v' /\ v_dims v' <> 4 :: v_dims t.
Proof.
  exists (mk_vec [3;0] []), (mk_vec [0] []), (mk_vec [1;0] []).
  repeat split; vm_compute; congruence.
Qed.
Print Assumptions C07_push_empty_slice_refuted.

Example C07_ex :
  push_back_vec (mk_vec [2;2] [1;2;3;4]) (mk_vec [2] [5;6]) = Ok (mk_vec [3;2] [1;2;3;4;5;6]).
Proof. reflexivity. Qed.
Example C07_ex_bad : push_back_vec (mk_vec [2;2] [1;2;3;4]) (mk_vec [3] [5;6;7]) = CheckFail.
Proof. reflexivity. Qed.

(* ---- C20 : inplace_remove -------------------------------------------------- *)
Theorem C20_removes_rows : forall A (v : vec A) d ds ids,
  wf v -> v_dims v = d :: ds -> 0 < nprod ds -> NoDup ids -> Forall (fun i => i < d) ids ->
  inplace_remove v ids =
    Ok (mk_vec (d - length ids :: ds) (rows_without (nprod ds) d (v_data v) ids)).
Proof. exact @remove_ok. Qed.
Print Assumptions C20_removes_rows.

(* whatever the other indices *)
Theorem C20_past_the_end_stops : forall A (v : vec A) d ds ids,
  v_dims v = d :: ds -> Exists (fun i => v_size v <= i) ids -> inplace_remove v ids = CheckFail.
Proof. exact @remove_reject. Qed.
Print Assumptions C20_past_the_end_stops.

(* the bound check compares with the number of elements, not of rows *)
Theorem C20_row_check_refuted : forall A (v : vec A) d ds ids,
  wf v -> v_dims v = d :: ds -> NoDup ids -> Forall (fun i => i < v_size v) ids ->
  Exists (fun i => d <= i) ids -> inplace_remove v ids = UB.
Proof. exact @remove_ub. Qed.
Print Assumptions C20_row_check_refuted.

(* repeated indices are noticed only next to each other at the end of a run *)
Theorem C20_repeated : inplace_remove (mk_vec [3] [1;2;3]) [1;1] = CheckFail /\
  inplace_remove (mk_vec [5] [10;11;12;13;14]) [1;1;2] = Ok (mk_vec [2] [10;13;14]).
Proof. split; reflexivity. Qed.
Print Assumptions C20_repeated.

Example C20_ex : inplace_remove (mk_vec [4;2] [0;1;10;11;20;21;30;31]) [3;1] =
  Ok (mk_vec [2;2] [0;1;20;21]).
Proof. reflexivity. Qed.
Example C20_ex_ub : inplace_remove (mk_vec [2;2] [0;1;10;11]) [3] = UB.
Proof. reflexivity. Qed.
Example C20_ex_spec : rows_without 2 4 [0;1;10;11;20;21;30;31] [3;1] = [0;1;20;21].
Proof. reflexivity. Qed.

(* ---- C21 : append / prepend ------------------------------------------------ *)
Theorem C21_append1 : forall A self (t1 t2 v : vec A), wf t1 -> wf t2 ->
  append1 self t1 t2 = Ok v -> self = false /\ good v /\ v_data v = v_data t1 ++ v_data t2.
Proof. exact @append1_good. Qed.
Print Assumptions C21_append1.

Theorem C21_prepend1 : forall A self (t1 t2 v : vec A), wf t1 -> wf t2 ->
  prepend1 self t1 t2 = Ok v -> self = false /\ good v /\ v_data v = v_data t2 ++ v_data t1.
Proof. exact @prepend1_good. Qed.
Print Assumptions C21_prepend1.

Theorem C21_append1_accepts : forall A (t1 t2 : vec A) d1 d2,
  v_dims t1 = [d1] -> v_dims t2 = [d2] -> (N.of_nat (v_size t1 + v_size t2) <= max_elems)%N ->
  (exists v, append1 false t1 t2 = Ok v) /\ (exists v, prepend1 false t1 t2 = Ok v).
Proof.
  intros A t1 t2 d1 d2 E1 E2 H. unfold append1, prepend1, data_concat, v_size in *. rewrite E1, E2.
  rewrite (Nat.add_comm (length (v_data t2))).
  apply N.leb_le in H. rewrite H. cbn [obind]. eauto.
Qed.
Print Assumptions C21_append1_accepts.

(* appending a one-dimensional vector to itself is undefined *)
Theorem C21_self_append_refuted : forall A (t : vec A) d,
  v_dims t = [d] -> append1 true t t = UB /\ prepend1 true t t = UB.
Proof. intros A t d E. unfold append1, prepend1. rewrite E. auto. Qed.
Print Assumptions C21_self_append_refuted.

(* along dimension |pre| of any shape *)
Theorem C21_append_dim : forall A (dflt : A) pre n1 n2 post (t1 t2 : vec A),
  wf t1 -> wf t2 -> v_dims t1 = pre ++ n1 :: post -> v_dims t2 = pre ++ n2 :: post ->
  v_data t1 <> [] -> v_data t2 <> [] ->
  (N.of_nat (v_size t1 + v_size t2) <= max_elems)%N ->
  exists r, append_dim dflt (length pre) t1 t2 = Ok r /\
    v_dims r = pre ++ (n1 + n2) :: post /\ wf r /\
    (forall ia i ib, in_range pre ia -> i < n1 -> in_range post ib ->
       elem r (ia ++ i :: ib) = elem t1 (ia ++ i :: ib)) /\
    (forall ia i ib, in_range pre ia -> i < n2 -> in_range post ib ->
       elem r (ia ++ (n1 + i) :: ib) = elem t2 (ia ++ i :: ib)).
Proof. exact @append_exact. Qed.
Print Assumptions C21_append_dim.

Theorem C21_prepend_dim : forall A (dflt : A) pre n1 n2 post (t1 t2 : vec A),
  wf t1 -> wf t2 -> v_dims t1 = pre ++ n1 :: post -> v_dims t2 = pre ++ n2 :: post ->
  v_data t1 <> [] -> v_data t2 <> [] ->
  (N.of_nat (v_size t1 + v_size t2) <= max_elems)%N ->
  exists r, prepend_dim dflt (length pre) t1 t2 = Ok r /\
    v_dims r = pre ++ (n1 + n2) :: post /\ wf r /\
    (forall ia i ib, in_range pre ia -> i < n2 -> in_range post ib ->
       elem r (ia ++ i :: ib) = elem t2 (ia ++ i :: ib)) /\
    (forall ia i ib, in_range pre ia -> i < n1 -> in_range post ib ->
       elem r (ia ++ (n2 + i) :: ib) = elem t1 (ia ++ i :: ib)).
Proof. exact @prepend_exact. Qed.
Print Assumptions C21_prepend_dim.

(* an empty operand *)
Theorem C21_empty : forall A (dflt : A) N (t1 t2 : vec A),
  (v_data t1 = [] -> append_dim dflt N t1 t2 = Ok t2) /\
  (v_data t1 <> [] -> v_data t2 = [] -> append_dim dflt N t1 t2 = Ok t1).
Proof.
  intros A dflt N t1 t2. unfold append_dim, v_empty, v_size. split.
  - intros ->. reflexivity.
  - intros H ->. destruct (v_data t1); [congruence|]. reflexivity.
Qed.
Print Assumptions C21_empty.

(* shapes that differ in another dimension are accepted *)
Theorem C21_shape_check_refuted :
  exists (t1 t2 r : vec nat), wf t1 /\ wf t2 /\ v_dims t1 = [1;2;3] /\ v_dims t2 = [1;3;2] /\
    append_dim 0 0 t1 t2 = Ok r /\ v_dims r = [2;2;3].
Proof.
  exists (mk_vec [1;2;3] [1;2;3;4;5;6]), (mk_vec [1;3;2] [7;8;9;10;11;12]),
    (mk_vec [2;2;3] [1;2;3;4;5;6;7;8;9;10;11;12]).
  repeat split; vm_compute; congruence.
Qed.
Print Assumptions C21_shape_check_refuted.

Example C21_ex : append_dim 0 1 (mk_vec [2;1] [1;2]) (mk_vec [2;2] [3;4;5;6]) =
  Ok (mk_vec [2;3] [1;3;4;2;5;6]).
Proof. reflexivity. Qed.
Example C21_ex_pre : prepend_dim 0 1 (mk_vec [2;1] [1;2]) (mk_vec [2;2] [3;4;5;6]) =
  Ok (mk_vec [2;3] [3;4;1;5;6;2]).
Proof. reflexivity. Qed.

(* ---- C52 : nested initializer lists --------------------------------------- *)
Theorem C52_rectangular : forall A (dflt : A) n ds (il : nlist A n),
  homog n ds il -> Forall (fun d => 0 < d) ds -> (N.of_nat (nprod ds) <= max_elems)%N ->
  vec_ilist dflt n il [] = Ok (mk_vec ds (flat n il)).
Proof. intros. apply ilist_ok; assumption. Qed.
Print Assumptions C52_rectangular.

(* lists that are not rectangular stop the program, unless a first list is empty *)
Theorem C52_ragged_stops : forall A (dflt : A) n (il : nlist A n),
  Forall (fun d => 0 < d) (first_shape n il) -> length (first_shape n il) = n ->
  (N.of_nat (nprod (first_shape n il)) <= max_elems)%N ->
  (forall ds, ~ homog n ds il) ->
  vec_ilist dflt n il [] = CheckFail.
Proof.
  intros A dflt n il H1 H2 H3 H4.
  assert (G : forall m (l : nlist A m), Forall (fun d => 0 < d) (first_shape m l) ->
              ilist_dims m l = Some (first_shape m l)).
  { clear. induction m as [|m IH]; intros l H; cbn [first_shape ilist_dims] in *; [reflexivity|].
    destruct l as [|x l]; [inversion H; lia|]. inversion H; subst. rewrite IH by assumption. reflexivity. }
  apply ilist_reject with (ds := first_shape n il); auto.
Qed.
Print Assumptions C52_ragged_stops.

(* data after an empty first list are silently dropped *)
Theorem C52_empty_first_refuted :
  exists il : nlist nat 2, flat 2 il <> [] /\ vec_ilist 0 2 il [] = Ok (mk_vec [0;0] []).
Proof. exists [[];[1;2]]. split; [discriminate|reflexivity]. Qed.
Print Assumptions C52_empty_first_refuted.

Example C52_ex : vec_ilist 0 2 [[1;2;3];[4;5;6]] [] = Ok (mk_vec [2;3] [1;2;3;4;5;6]).
Proof. reflexivity. Qed.
Example C52_ex_homog : homog 2 [2;3] [[1;2;3];[4;5;6]].
Proof. repeat constructor. Qed.
Example C52_ex_ragged : vec_ilist 0 2 [[1;2;3];[4;5]] [] = CheckFail.
Proof. reflexivity. Qed.

(* ---- C53 : subscripts mixing scalars, ranges and index lists --------------- *)
Theorem C53_cartesian : forall dims subs,
  Forall2 sub_valid dims subs -> (N.of_nat (nprod (sel_extents dims subs)) <= max_elems)%N ->
  multi_access dims subs =
    Ok (map N.of_nat (sel_extents dims subs),
        map (row_major dims) (cart (selection dims subs))).
Proof. exact multi_access_ok. Qed.
Print Assumptions C53_cartesian.

(* whatever the subscripts, a view never points outside the vector *)
Theorem C53_safe : forall dims subs vd l,
  Forall (fun d => (Z.of_nat d <= max_ptrs)%Z) dims -> Forall sub_u64 subs ->
  multi_access dims subs = Ok (vd, l) -> Forall (fun p => p < nprod dims) l.
Proof. exact multi_access_safe. Qed.
Print Assumptions C53_safe.

(* subscripts outside their dimension never give a view *)
Theorem C53_outside_stops : forall dims subs,
  Forall2 (fun d s => (sub_valid d s \/ sub_outside d s) /\ sub_nonempty d s) dims subs ->
  ~ Forall2 (fun d s => ~ sub_outside d s) dims subs ->
  multi_access dims subs = CheckFail \/ multi_access dims subs = Throws.
Proof. exact multi_access_reject. Qed.
Print Assumptions C53_outside_stops.

(* two reversed ranges pass: the view has 2^64-1 rows and columns but one element *)
Theorem C53_reversed_refuted :
  multi_access [5;5] [SRange (RLeftRight 3 1); SRange (RLeftRight 3 1)] =
    Ok ([18446744073709551615%N; 18446744073709551615%N], [18]).
Proof. vm_compute. reflexivity. Qed.
Print Assumptions C53_reversed_refuted.

Example C53_ex : multi_access [3;4] [SIds [2;0]; SRange (RLeftRight 1 2)] = Ok ([2%N;2%N], [9;10;1;2]).
Proof. vm_compute. reflexivity. Qed.
Example C53_ex_valid : Forall2 sub_valid [3;4] [SIds [2;0]; SRange (RLeftRight 1 2)].
Proof. repeat constructor; vm_compute; try congruence. Qed.
Example C53_ex_out : multi_access [3;4] [SIds [2;3]; SRange RFull] = CheckFail.
Proof. vm_compute. reflexivity. Qed.
