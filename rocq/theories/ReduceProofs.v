From Verif Require Import Base IndexSpec IndexProofs VecModel VecSpec VecProofs VecProofs2
  OrderModel OrderSpec OrderProofs ReduceModel ReduceSpec.
From Coq Require Import ZifyBool.

Lemma split_at A (l : list A) k x : nth_error l k = Some x ->
  l = firstn k l ++ x :: skipn (S k) l /\ length (firstn k l) = k.
Proof.
  revert l; induction k as [|k IH]; intros [|y l] H; try discriminate.
  - injection H as ->. split; reflexivity.
  - cbn [nth_error] in H. destruct (IH l H) as [E L]. cbn [firstn skipn app length]. split; [f_equal; exact E|lia].
Qed.

Lemma nth_error_seq0 n i : i < n -> nth_error (seq 0 n) i = Some i.
Proof. intros H. rewrite nth_error_seq. destruct (Nat.ltb_spec i n); [reflexivity|lia]. Qed.

Lemma Forall2_len A B (R : A -> B -> Prop) l1 l2 : Forall2 R l1 l2 -> length l1 = length l2.
Proof. intros H; induction H; simpl; congruence. Qed.

Lemma firstn_app_l A (a b : list A) : firstn (length a) (a ++ b) = a.
Proof. rewrite firstn_app, Nat.sub_diag, firstn_all. simpl. apply app_nil_r. Qed.
Lemma skipn_app_l A (a b : list A) : skipn (length a) (a ++ b) = b.
Proof. rewrite skipn_app, Nat.sub_diag, skipn_all. reflexivity. Qed.
Lemma skipn_app_cons A (a b : list A) x : skipn (S (length a)) (a ++ x :: b) = b.
Proof.
  rewrite skipn_app. replace (S (length a) - length a) with 1 by lia.
  rewrite skipn_all2 by lia. reflexivity.
Qed.

Section Slices.
Context {A : Type} (pre post : list nat) (d : nat) (data : list A).
Let dims := pre ++ d :: post.
Let dim := length pre.
Hypothesis L : length data = nprod dims.

Lemma reduced_eq : reduced_dims dims dim = pre ++ post.
Proof.
  unfold reduced_dims, dims, dim. rewrite firstn_app_l. f_equal.
  replace (length pre + 1) with (S (length pre)) by lia. apply skipn_app_cons.
Qed.
Lemma without_eq : without_dim dim dims = pre ++ post.
Proof. unfold without_dim, dims, dim. rewrite firstn_app_l, skipn_app_cons. reflexivity. Qed.
Lemma mpitch_eq : mpitch dims dim = nprod post.
Proof.
  unfold mpitch, dims, dim. replace (length pre + 1) with (S (length pre)) by lia.
  rewrite skipn_app_cons. reflexivity.
Qed.

Lemma slice_index ip iq j : in_range pre ip -> in_range post iq -> j < d ->
  let u := row_major (pre ++ post) (ip ++ iq) in
  u mod nprod post + u / nprod post * d * nprod post + j * nprod post =
    row_major dims (with_sub dim j (ip ++ iq)) /\
  row_major dims (with_sub dim j (ip ++ iq)) < length data.
Proof.
  intros Rp Rq Hj u. pose proof (in_range_length _ _ Rp) as L1. pose proof (in_range_length _ _ Rq) as L2.
  pose proof (row_major_bound _ _ Rq) as Bq. pose proof (row_major_bound _ _ Rp) as Bp.
  assert (E : with_sub dim j (ip ++ iq) = ip ++ j :: iq).
  { unfold with_sub, dim. rewrite <- L1, firstn_app_l, skipn_app_l. reflexivity. }
  rewrite E. unfold dims. rewrite row_major_app by (simpl; lia). rewrite nprod_cons, row_major_cons by lia.
  unfold u. rewrite row_major_app by lia.
  set (p := row_major pre ip) in *. set (q := row_major post iq) in *. set (m := nprod post) in *.
  assert (D : (p * m + q) / m = p) by (rewrite Nat.div_add_l by lia; rewrite Nat.div_small by lia; lia).
  assert (M : (p * m + q) mod m = q) by (rewrite Nat.add_comm, Nat.mod_add by lia; apply Nat.mod_small; lia).
  rewrite D, M. split; [lia|]. rewrite L. unfold dims. rewrite nprod_app, nprod_cons. fold m.
  assert (X1 : j * m + q < d * m) by nia. assert (X2 : (p + 1) * (d * m) <= nprod pre * (d * m)) by (apply Nat.mul_le_mono_r; lia). lia.
Qed.

Lemma slice_ok ids : in_range (pre ++ post) ids ->
  exists s, slice_of dims data dim (row_major (pre ++ post) ids) = Ok s /\
    length s = d /\ forall j, j < d -> nth_error s j = nth_error data (row_major dims (with_sub dim j ids)).
Proof.
  intros R. apply Forall2_app_inv_l in R as (ip & iq & Rp & Rq & ->).
  pose proof (row_major_bound _ _ Rq) as Bq.
  unfold slice_of. unfold oget at 1.
  assert (E : nth_error dims dim = Some d).
  { unfold dims, dim. rewrite nth_error_app2 by lia. rewrite Nat.sub_diag. reflexivity. }
  rewrite E. cbn [obind]. rewrite mpitch_eq. destruct (Nat.eqb_spec (nprod post) 0) as [C|C]; [lia|].
  destruct (omapl_ok _ _ (fun j => oget data (row_major (pre ++ post) (ip ++ iq) mod nprod post +
      row_major (pre ++ post) (ip ++ iq) / nprod post * d * nprod post + j * nprod post))
    (fun j => nth_error data (row_major dims (with_sub dim j (ip ++ iq)))) (seq 0 d)) as (s & E1 & E2 & E3).
  - intros j Hj. apply in_seq in Hj. destruct (slice_index ip iq j Rp Rq ltac:(lia)) as [H1 H2].
    rewrite H1. destruct (nth_error data (row_major dims (with_sub dim j (ip ++ iq)))) as [x|] eqn:Ex.
    + exists x. split; [|reflexivity]. apply oget_Ok. exact Ex.
    + apply nth_error_None in Ex. lia.
  - exists s. split; [exact E1|]. rewrite seq_length in E2. split; [exact E2|].
    intros j Hj. apply E3. apply nth_error_seq0. assumption.
Qed.
End Slices.

Lemma seq_all n i : In i (seq 0 n) <-> i < n.
Proof. rewrite in_seq. lia. Qed.

Lemma oget_in A (l : list A) i : i < length l -> exists x, oget l i = Ok x /\ nth_error l i = Some x.
Proof.
  intros H. destruct (nth_error l i) as [x|] eqn:E; [|apply nth_error_None in E; lia].
  exists x. split; [apply oget_Ok; exact E|reflexivity].
Qed.

Lemma Forall2_nth A B (R : A -> B -> Prop) l1 l2 i x : Forall2 R l1 l2 -> nth_error l1 i = Some x ->
  exists y, nth_error l2 i = Some y /\ R x y.
Proof.
  intros H. revert i. induction H as [|a b l1 l2 Hab H IH]; intros [|i] E; try discriminate.
  - injection E as <-. exists b. split; auto.
  - apply IH. exact E.
Qed.

Section Reduce.
Context {A B : Type} (f : list A -> outcome B).

Lemma reduce_setup (v : vec A) dim n : wf v -> nth_error (v_dims v) dim = Some n ->
  (N.of_nat (nprod (without_dim dim (v_dims v))) <= max_elems)%N ->
  exists pre post, v_dims v = pre ++ n :: post /\ dim = length pre /\
    without_dim dim (v_dims v) = pre ++ post /\
    reduce_dim f dim v =
      (r <- omapl (fun i => s <- slice_of (v_dims v) (v_data v) dim i ;; f s) (seq 0 (nprod (pre ++ post))) ;;
       Ok (mk_vec (pre ++ post) r)).
Proof.
  intros [L M] H Hm. destruct (split_at _ _ _ _ H) as [E E2].
  exists (firstn dim (v_dims v)), (skipn (S dim) (v_dims v)).
  split; [exact E|]. split; [congruence|]. split; [reflexivity|].
  unfold reduce_dim, v_rank. assert (dim < length (v_dims v)) by (apply nth_error_Some; congruence).
  replace (dim <? length (v_dims v)) with true by (symmetry; apply Nat.ltb_lt; assumption). cbn [check obind].
  assert (R : reduced_dims (v_dims v) dim = firstn dim (v_dims v) ++ skipn (S dim) (v_dims v)).
  { unfold reduced_dims. replace (dim + 1) with (S dim) by lia. reflexivity. }
  rewrite R. unfold without_dim in Hm. rewrite nwrap_small by (apply max_lt_two64; exact Hm).
  destruct (N.leb_spec (N.of_nat (nprod (firstn dim (v_dims v) ++ skipn (S dim) (v_dims v)))) max_elems) as [C|C]; [reflexivity|lia].
Qed.

Lemma reduce_result (v : vec A) dim n r : wf v -> nth_error (v_dims v) dim = Some n ->
  (N.of_nat (nprod (without_dim dim (v_dims v))) <= max_elems)%N ->
  reduce_dim f dim v = Ok r ->
  v_dims r = without_dim dim (v_dims v) /\ wf r /\
  forall ids, in_range (v_dims r) ids ->
    exists s y, is_slice v dim n ids s /\ f s = Ok y /\ elem r ids = Some y.
Proof.
  intros W H Hm E. destruct (reduce_setup v dim n W H Hm) as (pre & post & D & -> & Wd & R).
  rewrite R in E. apply obind_Ok in E as (l & E1 & E2). injection E2 as <-. cbn [v_dims v_data].
  split; [symmetry; exact Wd|]. pose proof (omapl_Ok_inv _ _ _ _ _ E1) as F.
  pose proof (Forall2_len _ _ _ _ _ F) as FL. rewrite seq_length in FL.
  split.
  { split; cbn [v_dims v_data]; [congruence|]. rewrite <- FL, <- Wd. exact Hm. }
  intros ids Hi. pose proof (row_major_bound _ _ Hi) as B0.
  destruct W as [L _]. rewrite D in L.
  destruct (slice_ok pre post n (v_data v) L ids Hi) as (s & S1 & S2 & S3).
  assert (Hn : nth_error (seq 0 (nprod (pre ++ post))) (row_major (pre ++ post) ids) = Some (row_major (pre ++ post) ids)).
  { apply nth_error_seq0. assumption. }
  destruct (Forall2_nth _ _ _ _ _ _ _ F Hn) as (y & Y1 & Y2). rewrite D in Y2. rewrite S1 in Y2. cbn [obind] in Y2.
  exists s, y. split; [|split; [exact Y2|]].
  - split; [exact S2|]. intros j Hj. unfold elem. rewrite D. apply S3. exact Hj.
  - unfold elem. cbn [v_dims v_data]. exact Y1.
Qed.

Lemma reduce_defined (v : vec A) dim n : wf v -> nth_error (v_dims v) dim = Some n ->
  (N.of_nat (nprod (without_dim dim (v_dims v))) <= max_elems)%N ->
  (forall ids s, in_range (without_dim dim (v_dims v)) ids -> is_slice v dim n ids s -> exists y, f s = Ok y) ->
  exists r, reduce_dim f dim v = Ok r.
Proof.
  intros W H Hm Hf. destruct (reduce_setup v dim n W H Hm) as (pre & post & D & -> & Wd & R).
  rewrite R. destruct W as [L _].
  assert (K : forall l, (forall u, In u l -> u < nprod (pre ++ post)) ->
    exists r, omapl (fun i => s <- slice_of (v_dims v) (v_data v) (length pre) i ;; f s) l = Ok r).
  { induction l as [|u l IH]; intros Hl; [exists []; reflexivity|].
    destruct IH as (r & Er); [intros; apply Hl; simpl; auto|].
    destruct (row_major_surj (pre ++ post) u (Hl u (or_introl eq_refl))) as (ids & I1 & I2).
    assert (L' : length (v_data v) = nprod (pre ++ n :: post)) by congruence.
    destruct (slice_ok pre post n (v_data v) L' ids I1) as (s & S1 & S2 & S3).
    destruct (Hf ids s) as (y & Hy).
    - rewrite Wd. exact I1.
    - split; [exact S2|]. intros j Hj. unfold elem. rewrite D. apply S3. exact Hj.
    - exists (y :: r). cbn [omapl]. rewrite D at 1. rewrite <- I2, S1. cbn [obind]. rewrite Hy. cbn [obind]. rewrite Er. reflexivity. }
  destruct (K (seq 0 (nprod (pre ++ post)))) as (r & Er); [intros u Hu; apply in_seq in Hu; lia|].
  rewrite Er. cbn [obind]. eauto.
Qed.
End Reduce.

(* every element is in exactly one slice *)
Lemma slices_partition dims dim n ids : nth_error dims dim = Some n -> in_range dims ids ->
  exists rest j, in_range (without_dim dim dims) rest /\ j < n /\ with_sub dim j rest = ids /\
    forall rest' j', in_range (without_dim dim dims) rest' -> with_sub dim j' rest' = ids -> rest' = rest /\ j' = j.
Proof.
  intros H R. destruct (split_at _ _ _ _ H) as [E E2]. unfold without_dim.
  set (pre := firstn dim dims) in *. set (post := skipn (S dim) dims) in *. clearbody pre post. subst dims.
  apply Forall2_app_inv_l in R as (ip & iq & Rp & Rq & ->). inversion Rq as [|? j ? iq' Hj Rq']; subst.
  pose proof (in_range_length _ _ Rp) as L1.
  exists (ip ++ iq'), j. split; [apply Forall2_app; assumption|]. split; [exact Hj|]. unfold with_sub. split.
  { rewrite <- L1, firstn_app_l, skipn_app_l. reflexivity. }
  intros rest' j' R' E'. apply Forall2_app_inv_l in R' as (jp & jq & Jp & Jq & ->).
  pose proof (in_range_length _ _ Jp) as L2. rewrite <- L2, firstn_app_l, skipn_app_l in E'.
  apply app_inj_length in E' as [-> E']; [|congruence]. injection E' as -> ->. auto.
Qed.

(* ---- sums ---- *)
Lemma zsum_app a b : zsum (a ++ b) = (zsum a + zsum b)%Z.
Proof. induction a as [|x a IH]; cbn [app zsum fold_right]; [reflexivity|]. fold (zsum (a ++ b)) (zsum a). lia. Qed.
Lemma zsum_cons x l : zsum (x :: l) = (x + zsum l)%Z. Proof. reflexivity. Qed.
Lemma total_zsum v : total v = zsum v.
Proof.
  unfold total. assert (H : forall v a, fold_left Z.add v a = (a + zsum v)%Z).
  { induction v0 as [|x v0 IH]; intros a; cbn [fold_left]; [cbn; lia|]. rewrite IH, zsum_cons. lia. }
  rewrite H. lia.
Qed.

Definition bigs (n : nat) (f : nat -> Z) : Z := zsum (map f (seq 0 n)).
Lemma bigs_S n f : bigs (S n) f = (bigs n f + f n)%Z.
Proof. unfold bigs. rewrite seq_S, map_app, zsum_app. cbn. lia. Qed.
Lemma bigs_ext n f g : (forall i, i < n -> f i = g i) -> bigs n f = bigs n g.
Proof. intros H. unfold bigs. f_equal. apply map_ext_in. intros i Hi. apply in_seq in Hi. apply H. lia. Qed.
Lemma bigs_add n f g : bigs n (fun i => (f i + g i)%Z) = (bigs n f + bigs n g)%Z.
Proof. induction n as [|n IH]; [reflexivity|]. rewrite !bigs_S, IH. lia. Qed.
Lemma bigs_swap n m f : bigs n (fun i => bigs m (fun j => f i j)) = bigs m (fun j => bigs n (fun i => f i j)).
Proof.
  induction n as [|n IH].
  - cbn. unfold bigs. induction (seq 0 m) as [|x l IHl]; [reflexivity|]. cbn [map]. rewrite zsum_cons. cbn in *. lia.
  - rewrite bigs_S, IH. rewrite <- bigs_add. apply bigs_ext. intros j _. rewrite bigs_S. reflexivity.
Qed.
Lemma bigs_plus n m f : bigs (n + m) f = (bigs n f + bigs m (fun i => f (n + i)%nat))%Z.
Proof.
  induction m as [|m IH]; [rewrite Nat.add_0_r; cbn; lia|].
  rewrite Nat.add_succ_r, !bigs_S, IH. lia.
Qed.
Lemma bigs_mul n m f : bigs (n * m) f = bigs n (fun a => bigs m (fun b => f (a * m + b))).
Proof.
  induction n as [|n IH]; [reflexivity|]. rewrite bigs_S, <- IH.
  replace (S n * m) with (n * m + m) by lia. apply bigs_plus.
Qed.
Lemma zsum_bigs l : zsum l = bigs (length l) (fun i => nth i l 0%Z).
Proof.
  unfold bigs. f_equal. apply list_eq_nth_error. intros i.
  destruct (Nat.lt_ge_cases i (length l)) as [H|H].
  - rewrite nth_error_map, nth_error_seq0 by assumption. simpl. apply nth_error_nth'. exact H.
  - rewrite !(proj2 (nth_error_None _ _)); [reflexivity| |assumption]. rewrite map_length, seq_length. exact H.
Qed.

Lemma nth_error_nth_z l i : i < length l -> nth_error l i = Some (nth i l 0%Z).
Proof. apply nth_error_nth'. Qed.

Lemma partial_total_sum (v r : vec Z) dim n : wf v -> nth_error (v_dims v) dim = Some n ->
  (N.of_nat (nprod (without_dim dim (v_dims v))) <= max_elems)%N ->
  partial_total dim v = Ok r -> zsum (v_data r) = zsum (v_data v).
Proof.
  intros W H Hm E. unfold partial_total in E.
  destruct (reduce_setup (fun l => Ok (total l)) v dim n W H Hm) as (pre & post & D & -> & Wd & R).
  rewrite R in E. apply obind_Ok in E as (l & E1 & E2). injection E2 as <-. cbn [v_data].
  pose proof (omapl_Ok_inv _ _ _ _ _ E1) as F. pose proof (Forall2_len _ _ _ _ _ F) as FL. rewrite seq_length in FL.
  destruct W as [L _]. rewrite D in L.
  set (m := nprod post). set (dat := v_data v) in *.
  assert (EL : forall u, u < nprod (pre ++ post) ->
    nth u l 0%Z = bigs n (fun j => nth (u mod m + u / m * n * m + j * m) dat 0%Z)).
  { intros u Hu. destruct (row_major_surj (pre ++ post) u Hu) as (ids & I1 & I2).
    destruct (slice_ok pre post n dat L ids I1) as (s & S1 & S2 & S3).
    assert (Hn : nth_error (seq 0 (nprod (pre ++ post))) u = Some u) by (apply nth_error_seq0; assumption).
    destruct (Forall2_nth _ _ _ _ _ _ _ F Hn) as (y & Y1 & Y2). rewrite D in Y2. rewrite <- I2, S1 in Y2. cbn [obind] in Y2.
    injection Y2 as Y2. rewrite (nth_error_nth _ _ _ Y1), <- Y2, total_zsum, zsum_bigs, S2.
    apply bigs_ext. intros j Hj.
    apply Forall2_app_inv_l in I1 as (ip & iq & Rp & Rq & ->).
    destruct (slice_index pre post n dat L ip iq j Rp Rq Hj) as [X1 X2]. rewrite I2 in X1. fold m in X1. rewrite X1.
    pose proof (S3 j Hj) as X3. rewrite (nth_error_nth_z s j) in X3 by lia. rewrite (nth_error_nth_z dat) in X3 by exact X2.
    injection X3 as ->. reflexivity. }
  rewrite (zsum_bigs l), <- FL. rewrite (bigs_ext _ _ _ EL).
  rewrite (zsum_bigs dat), L. rewrite nprod_app, nprod_app, nprod_cons. fold m.
  rewrite (bigs_mul (nprod pre) (n * m)), (bigs_mul (nprod pre) m).
  apply bigs_ext. intros a _. rewrite bigs_mul, bigs_swap.
  apply bigs_ext. intros b Hb. apply bigs_ext. intros j Hj.
  f_equal. rewrite Nat.div_add_l by lia. rewrite Nat.div_small by lia.
  rewrite Nat.add_comm with (n := a * m), Nat.mod_add by lia. rewrite Nat.mod_small by lia. lia.
Qed.

Lemma count_where v : count v = length (where_ v).
Proof.
  unfold count, where_. rewrite map_length.
  assert (H : forall v a k, fold_left (fun n (b : bool) => if b then n + 1 else n) v a = a + length (filter snd (combine (seq k (length v)) v))).
  { induction v0 as [|b v0 IH]; intros a k; cbn [fold_left length seq combine filter]; [simpl; lia|].
    rewrite (IH _ (S k)). cbn [snd]. destruct b; simpl; lia. }
  rewrite (H v 0 0). reflexivity.
Qed.
