From Coq Require Import ZArith Lia.
From Verif Require Import Base IndexModel IndexSpec IndexProofs StrideModel StrideSpec.
Local Open Scope nat_scope.

Definition shift (p : policy) (o : Z) : policy := mk_policy (stride p) (offset p + o)%Z.

Lemma in_range_pos dims ids : in_range dims ids -> 0 < nprod dims.
Proof. intro H. pose proof (row_major_bound dims ids H). lia. Qed.

Lemma in_range_len dims ids : in_range dims ids -> length dims = length ids.
Proof. intro H. induction H; cbn; congruence. Qed.

Lemma gso_scalars : forall ds ids rest subs bp ep, in_range ds ids ->
  get_stride_offset (ds ++ rest) (map Some ids ++ subs) bp ep =
  get_stride_offset rest subs (shift bp (Z.of_nat (row_major ds ids * nprod rest)))
    (shift ep (Z.of_nat (row_major ds ids * nprod rest))).
Proof.
  intros ds ids rest subs bp ep H. revert bp ep.
  induction H as [|d i ds ids L H IH]; intros bp ep; cbn [app map].
  - unfold shift. change (row_major [] []) with 0. cbn [Nat.mul Z.of_nat]. rewrite !Z.add_0_r.
    destruct bp, ep; reflexivity.
  - cbn [get_stride_offset]. unfold to_idx_nat. rewrite (proj2 (Nat.ltb_lt _ _) L). cbn [check obind].
    rewrite IH. rewrite row_major_cons by (symmetry; apply (in_range_len _ _ H)).
    rewrite nprod_app. unfold shift. cbn [stride offset]. f_equal; f_equal; nia.
Qed.

Lemma gso_outside : forall ds ids subs bp ep rest,
  length ds = length ids -> ~ in_range ds ids -> 
  get_stride_offset (ds ++ rest) (map Some ids ++ subs) bp ep = CheckFail.
Proof.
  induction ds as [|d ds IH]; intros [|i ids] subs bp ep rest L N; try discriminate L.
  - exfalso; apply N; constructor.
  - cbn [app map get_stride_offset]. unfold to_idx_nat. destruct (Nat.ltb_spec i d) as [X|X]; [|reflexivity].
    cbn [check obind]. apply IH; [now injection L|]. intro Y. apply N. now constructor.
Qed.

Definition line_begin (d1 : list nat) (d : nat) (d2 pre post : list nat) : Z :=
  Z.of_nat (row_major d1 pre * (d * nprod d2) + row_major d2 post).

Lemma stride_range_ok : forall d1 d d2 pre post, in_range d1 pre -> in_range d2 post ->
  stride_range (d1 ++ d :: d2) (map Some pre ++ None :: map Some post) =
  let b := line_begin d1 d d2 pre post in let p := Z.of_nat (nprod d2) in
  Ok (mk_iter (mk_policy p b) b, mk_iter (mk_policy p (b + Z.of_nat d * p)) (b + Z.of_nat d * p))%Z.
Proof.
  intros d1 d d2 pre post H1 H2. unfold stride_range. rewrite gso_scalars by exact H1.
  cbn [get_stride_offset]. 
  pose proof (gso_scalars d2 post [] []) as G. rewrite !app_nil_r in G. rewrite G by exact H2.
  cbn [get_stride_offset obind]. unfold begin_with, shift, policy0. cbn [stride offset].
  rewrite nprod_cons. change (nprod []) with 1. unfold line_begin. cbv zeta.
  do 2 f_equal; [f_equal; [f_equal|]|f_equal; [f_equal|]]; lia.
Qed.

Lemma row_major_line : forall d1 d d2 pre k post, in_range d1 pre -> in_range d2 post ->
  Z.of_nat (row_major (d1 ++ d :: d2) (pre ++ k :: post)) =
  (line_begin d1 d d2 pre post + Z.of_nat k * Z.of_nat (nprod d2))%Z.
Proof.
  intros d1 d d2 pre k post H1 H2. pose proof (in_range_len _ _ H1). pose proof (in_range_len _ _ H2).
  rewrite row_major_app by (cbn [length]; lia). rewrite row_major_cons by lia. rewrite nprod_cons.
  unfold line_begin. lia.
Qed.

Lemma in_range_line : forall d1 d d2 pre k post, in_range d1 pre -> in_range d2 post -> k < d ->
  in_range (d1 ++ d :: d2) (pre ++ k :: post).
Proof. intros. apply Forall2_app; [assumption|]. now constructor. Qed.

Lemma traverse_ok : forall p b size m k fuel, (0 < p)%Z -> m < fuel -> forall pol pol',
  stride pol = p ->
  (forall i, i < m -> (0 <= b + Z.of_nat (k + i) * p < Z.of_nat size)%Z) ->
  traverse fuel size (mk_iter pol (b + Z.of_nat k * p)) (mk_iter pol' (b + Z.of_nat (k + m) * p)) =
  Ok (map (fun i => Z.to_nat (b + Z.of_nat i * p)) (seq k m)).
Proof.
  intros p b size m. induction m as [|m IH]; intros k fuel P F pol pol' HS H.
  - rewrite Nat.add_0_r. destruct fuel; [lia|]. cbn [traverse]. unfold it_eq. cbn [it_pos].
    now rewrite Z.eqb_refl.
  - destruct fuel as [|fuel]; [lia|]. cbn [traverse]. unfold it_eq at 1. cbn [it_pos].
    assert (N : (b + Z.of_nat k * p =? b + Z.of_nat (k + S m) * p)%Z = false) by (apply Z.eqb_neq; nia).
    rewrite N. unfold it_deref. cbn [it_pos].
    pose proof (H 0 ltac:(lia)) as [A B]. rewrite Nat.add_0_r in A, B.
    apply Z.leb_le in A. apply Z.ltb_lt in B. rewrite A, B. cbn [andb obind].
    unfold it_inc, it_add. cbn [it_policy it_pos]. rewrite HS.
    replace (b + Z.of_nat k * p + 1 * p)%Z with (b + Z.of_nat (Datatypes.S k) * p)%Z by lia.
    replace (k + Datatypes.S m) with (Datatypes.S k + m) by lia.
    rewrite IH; [reflexivity|exact P|lia|exact HS|].
    intros i I. replace (Datatypes.S k + i) with (k + Datatypes.S i) by lia. apply H. lia.
Qed.

Lemma visit_ok : forall d1 d d2 pre post fuel,
  in_range d1 pre -> in_range d2 post -> d < fuel ->
  visit fuel (d1 ++ d :: d2) (nprod (d1 ++ d :: d2)) (map Some pre ++ None :: map Some post) =
  Ok (map (row_major (d1 ++ d :: d2)) (line pre post d)).
Proof.
  intros d1 d d2 pre post fuel H1 H2 F. unfold visit. rewrite stride_range_ok by assumption.
  cbv zeta. cbn [obind].
  set (b := line_begin d1 d d2 pre post). set (p := Z.of_nat (nprod d2)).
  pose proof (in_range_pos _ _ H2) as P.
  pose proof (traverse_ok p b (nprod (d1 ++ d :: d2)) d 0 fuel ltac:(lia) F
    (mk_policy p b) (mk_policy p (b + Z.of_nat d * p)) eq_refl) as T.
  change (Z.of_nat 0 * p)%Z with 0%Z in T. rewrite Z.add_0_r in T. cbn [plus] in T. rewrite T.
  - unfold line. rewrite map_map. f_equal. apply map_ext. intro k.
    rewrite <- (Nat2Z.id (row_major _ _)). f_equal. symmetry. now apply row_major_line.
  - intros i I. unfold b, p. rewrite <- row_major_line by assumption.
    pose proof (row_major_bound _ _ (in_range_line d1 d d2 pre i post H1 H2 I)). lia.
Qed.
