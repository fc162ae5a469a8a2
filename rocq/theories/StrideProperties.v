(* C68: strided traversal of one dimension (v.stride(i, _, k)). *)
From Coq Require Import ZArith Lia.
From Verif Require Import Base IndexModel IndexSpec IndexProofs StrideModel StrideSpec StrideProofs.
Local Open Scope nat_scope.

(* Iterating over v.stride(pre..., _, post...) visits the elements v(pre..., k, post...) for k = 0, 1,
   ..., d-1, in this order, and then stops; d is the size of the dimension of the placeholder. *)
Theorem C68_visits : forall d1 d d2 pre post fuel,
  in_range d1 pre -> in_range d2 post -> d < fuel ->
  visit fuel (d1 ++ d :: d2) (nprod (d1 ++ d :: d2)) (map Some pre ++ None :: map Some post) =
  Ok (map (row_major (d1 ++ d :: d2)) (line pre post d)).
Proof. exact visit_ok. Qed.
Print Assumptions C68_visits.

(* No element is visited twice. *)
Theorem C68_visits_once : forall d1 d d2 pre post, in_range d1 pre -> in_range d2 post ->
  NoDup (map (row_major (d1 ++ d :: d2)) (line pre post d)).
Proof.
  intros d1 d d2 pre post H1 H2. unfold line. rewrite map_map.
  apply NoDup_nth_error. rewrite map_length, seq_length. intros x y X E.
  rewrite !nth_error_map, !nth_error_seq in E. rewrite (proj2 (Nat.ltb_lt _ _) X) in E.
  destruct (Nat.ltb_spec y d) as [Y|Y]; [|discriminate E]. cbn [option_map plus] in E.
  injection E as E. apply row_major_inj in E; try (apply in_range_line; auto; lia).
  apply app_inv_head in E. now injection E.
Qed.
Print Assumptions C68_visits_once.

(* Every element of the vector is visited by exactly one of the lines along a dimension. *)
Theorem C68_lines_cover : forall d1 d d2 pos, pos < nprod (d1 ++ d :: d2) ->
  exists pre post, in_range d1 pre /\ in_range d2 post /\
    In pos (map (row_major (d1 ++ d :: d2)) (line pre post d)) /\
    forall pre' post', in_range d1 pre' -> in_range d2 post' ->
      In pos (map (row_major (d1 ++ d :: d2)) (line pre' post' d)) -> pre' = pre /\ post' = post.
Proof.
  intros d1 d d2 pos H. destruct (row_major_surj _ _ H) as (ids & R & E).
  apply Forall2_app_inv_l in R. destruct R as (pre & rest & R1 & R2 & ->).
  inversion R2 as [|? k ? post K R3]; subst.
  exists pre, post. split; [exact R1|]. split; [exact R3|]. split.
  - apply in_map. unfold line. apply in_map_iff. exists k. split; [reflexivity|]. apply in_seq. lia.
  - intros pre' post' P1 P2 I. apply in_map_iff in I. destruct I as (ids' & E' & I).
    unfold line in I. apply in_map_iff in I. destruct I as (k' & <- & K'). apply in_seq in K'.
    apply row_major_inj in E'; [|apply in_range_line; auto; lia|apply in_range_line; auto].
    assert (L : length pre' = length pre).
    { rewrite (in_range_length _ _ R1). now apply in_range_length. }
    assert (A : forall (a b c e : list nat), length a = length b -> a ++ c = b ++ e -> a = b /\ c = e).
    { induction a as [|x a IH]; intros [|y b] c e LL EE; try discriminate LL; cbn [app] in EE.
      - easy.
      - injection EE as -> EE. injection LL as LL. destruct (IH b c e LL EE) as [-> ->]. easy. }
    destruct (A _ _ _ _ L E') as [-> B]. injection B as _ ->. easy.
Qed.
Print Assumptions C68_lines_cover.

(* A fixed index outside its dimension stops the program. *)
Theorem C68_outside_refused : forall d1 d d2 pre post fuel size,
  length d1 = length pre -> length d2 = length post ->
  ~ (in_range d1 pre /\ in_range d2 post) ->
  visit fuel (d1 ++ d :: d2) size (map Some pre ++ None :: map Some post) = CheckFail.
Proof.
  intros d1 d d2 pre post fuel size L1 L2 N. unfold visit, stride_range.
  assert (DEC : forall ds ids, in_range ds ids \/ ~ in_range ds ids).
  { intros ds ids. unfold in_range.
    induction ds as [|a ds IH] in ids |- *; destruct ids as [|i ids];
      [left; constructor|right; intro X; inversion X..|].
    destruct (lt_dec i a) as [X|X]; [|right; intro Y; inversion Y; contradiction].
    destruct (IH ids) as [Y|Y]; [left; now constructor|right; intro Z; inversion Z; contradiction]. }
  destruct (DEC d1 pre) as [H1|H1].
  - rewrite gso_scalars by exact H1. cbn [get_stride_offset].
    pose proof (gso_outside d2 post []) as G.
    match goal with |- context [get_stride_offset d2 _ ?a ?b] => specialize (G a b [] L2) end.
    rewrite !app_nil_r in G. rewrite G; [reflexivity|]. intro H2. apply N. easy.
  - rewrite gso_outside by assumption. reflexivity.
Qed.
Print Assumptions C68_outside_refused.

(* Iterator arithmetic: the distance from begin to end is the size of the dimension, advancing and going
   back cancel, the difference undoes an advance, and the order is that of the differences. *)
Theorem C68_distance : forall d1 d d2 pre post, in_range d1 pre -> in_range d2 post ->
  exists b e, stride_range (d1 ++ d :: d2) (map Some pre ++ None :: map Some post) = Ok (b, e) /\
    it_diff e b = Ok (Z.of_nat d) /\ it_eq (it_add b (Z.of_nat d)) e = true.
Proof.
  intros d1 d d2 pre post H1 H2. rewrite stride_range_ok by assumption. cbv zeta.
  eexists _, _; split; [reflexivity|]. pose proof (in_range_pos _ _ H2) as P.
  unfold it_diff, it_eq, it_add. cbn [it_policy it_pos stride].
  set (b := line_begin _ _ _ _ _). set (p := Z.of_nat (nprod d2)).
  assert (P' : (0 < p)%Z) by (unfold p; lia).
  replace (p =? 0)%Z with false by (symmetry; apply Z.eqb_neq; lia).
  split; [|apply Z.eqb_refl]. f_equal.
  replace (b + Z.of_nat d * p - b)%Z with (Z.of_nat d * p)%Z by lia. apply Z.quot_mul. lia.
Qed.
Print Assumptions C68_distance.

Theorem C68_iterator_laws : forall it n m, stride (it_policy it) <> 0%Z ->
  it_diff (it_add it n) it = Ok n /\
  it_sub (it_add it n) n = it /\ it_dec (it_inc it) = it /\
  it_add (it_add it n) m = it_add it (n + m) /\
  ((0 < stride (it_policy it))%Z ->
     it_lt (it_add it n) (it_add it m) = (n <? m)%Z /\
     it_le (it_add it n) (it_add it m) = (n <=? m)%Z /\
     it_eq (it_add it n) (it_add it m) = (n =? m)%Z).
Proof.
  intros [[s o] x] n m S. cbn [it_policy stride] in *.
  unfold it_diff, it_sub, it_dec, it_inc, it_add, it_lt, it_le, it_eq. cbn [it_policy it_pos stride].
  split.
  { rewrite (proj2 (Z.eqb_neq s 0) S). f_equal. replace (x + n * s - x)%Z with (n * s)%Z by lia.
    now apply Z.quot_mul. }
  split; [f_equal; lia|]. split; [f_equal; lia|]. split; [f_equal; lia|]. intro P.
  split; [|split].
  - destruct (Z.ltb_spec n m); [apply Z.ltb_lt|apply Z.ltb_ge]; nia.
  - destruct (Z.leb_spec n m); [apply Z.leb_le|apply Z.leb_gt]; nia.
  - destruct (Z.eqb_spec n m); [apply Z.eqb_eq; subst; reflexivity|apply Z.eqb_neq; nia].
Qed.
Print Assumptions C68_iterator_laws.

(* Finding: the end iterator of a line that is not the first of its block is past the end of the storage,
   which std::vector iterators do not allow: for a matrix, that is every column but the first. *)
Theorem C68_column_end_refuted : forall n m j, 0 < j -> j < m ->
  exists b e, stride_range [n; m] [None; Some j] = Ok (b, e) /\
    it_pos e = Z.of_nat (nprod [n; m] + j) /\ legal (nprod [n; m]) e = false.
Proof.
  intros n m j J M.
  assert (H2 : in_range [m] [j]) by (repeat constructor; assumption).
  pose proof (stride_range_ok [] n [m] [] [j] ltac:(constructor) H2) as R. cbn [app map] in R.
  eexists _, _; split; [exact R|].
  assert (E : (line_begin [] n [m] [] [j] + Z.of_nat n * Z.of_nat (nprod [m]))%Z = Z.of_nat (nprod [n; m] + j)).
  { unfold line_begin. rewrite !nprod_cons. change (nprod []) with 1.
    change (row_major [] []) with 0. rewrite row_major_cons by reflexivity.
    change (row_major [] []) with 0. change (nprod []) with 1. lia. }
  split; [exact E|]. unfold legal. cbn [it_pos]. rewrite E. apply andb_false_intro2. apply Z.leb_gt. lia.
Qed.
Print Assumptions C68_column_end_refuted.

(* Lines along the last dimension stay inside the storage. *)
Theorem C68_row_end_legal : forall d1 d pre, in_range d1 pre ->
  exists b e, stride_range (d1 ++ [d]) (map Some pre ++ [None]) = Ok (b, e) /\
    legal (nprod (d1 ++ [d])) b = true /\ legal (nprod (d1 ++ [d])) e = true.
Proof.
  intros d1 d pre H1.
  pose proof (stride_range_ok d1 d [] pre [] H1 ltac:(constructor)) as R. cbn [map] in R.
  eexists _, _; split; [exact R|]. pose proof (row_major_bound _ _ H1) as B.
  unfold legal. cbn [it_pos]. rewrite nprod_app, nprod_cons. change (nprod []) with 1.
  unfold line_begin. change (row_major [] []) with 0. change (nprod []) with 1.
  split; apply andb_true_intro; split; apply Z.leb_le; nia.
Qed.
Print Assumptions C68_row_end_legal.

(* examples: a 2x3x4 vector *)
Example stride_mid : visit 10 [2; 3; 4] 24 [Some 1; None; Some 2] = Ok [14; 18; 22].
Proof. reflexivity. Qed.
Example stride_first : visit 10 [2; 3; 4] 24 [None; Some 0; Some 3] = Ok [3; 15].
Proof. reflexivity. Qed.
Example stride_out : visit 10 [2; 3; 4] 24 [Some 1; None; Some 4] = CheckFail.
Proof. reflexivity. Qed.
