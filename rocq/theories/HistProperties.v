(* C26: histograms.  C27: running sums. *)
From Coq Require Import QArith Permutation Lqa.
From Verif Require Import Base InterpSpec ReduceSpec HistModel HistSpec HistProofs HistProofs2.
Local Open Scope nat_scope.

(* Any bins, any std::partition: bin i counts the values whose first bin it is, so no value is
   counted twice, and the total is the number of values that lie in some bin. *)
Theorem C26_histogram : forall A (part : nat -> (A -> bool) -> list A -> list A * list A)
  (val : A -> option Q) data bins, partitions part ->
  exists counts, histogram part 2 val data bins = Ok counts /\ length counts = length bins /\
    (forall i c f, nth_error counts i = Some c ->
      (forall t, f t = true <-> first_bin bins t i) -> c = length (filter (fun x => f (val x)) data)) /\
    (forall f, (forall t, f t = true <-> exists b, In b bins /\ inside t b) ->
      list_sum counts = length (filter (fun x => f (val x)) data)).
Proof. exact histogram_ok. Qed.
Print Assumptions C26_histogram.

(* Contiguous bins: bin i counts exactly the values of [lower_i, upper_i), and the total is the
   number of values inside the overall range. *)
Theorem C26_contiguous : forall A (part : nat -> (A -> bool) -> list A -> list A * list A)
  (val : A -> option Q) data bins, partitions part -> contiguous bins ->
  exists counts, histogram part 2 val data bins = Ok counts /\ length counts = length bins /\
    (forall i c b f, nth_error counts i = Some c -> nth_error bins i = Some b ->
      (forall t, f t = true <-> inside t b) -> c = length (filter (fun x => f (val x)) data)) /\
    (forall first last f, nth_error bins 0 = Some first -> nth_error bins (length bins - 1) = Some last ->
      (forall t, f t = true <-> inside t (fst first, snd last)) ->
      list_sum counts = length (filter (fun x => f (val x)) data)).
Proof.
  intros A part val data bins P C. destruct (histogram_ok A part val data bins P) as (counts & E & L & S & T).
  exists counts. split; [exact E|]. split; [exact L|]. split.
  - intros i c b f N Nb F. apply (S i c f N). intros t. rewrite (contiguous_first bins t i b C Nb). apply F.
  - intros first last f N0 Nl F. apply T. intros t. rewrite (contiguous_hull bins t first last C N0 Nl). apply F.
Qed.
Print Assumptions C26_contiguous.

(* make_bins, make_bins_from_edges and make_bins_from_centers give such bins *)
Theorem C26_make_bins : forall mi ma n, (mi <= ma)%Q ->
  length (make_bins mi ma n) = n /\ contiguous (make_bins mi ma n) /\
  (forall first, nth_error (make_bins mi ma n) 0 = Some first -> (fst first == mi)%Q) /\
  (forall last, 0 < n -> nth_error (make_bins mi ma n) (n - 1) = Some last -> (snd last == ma)%Q) /\
  (forall b, In b (make_bins mi ma n) -> (bin_width b == (ma - mi) / inject_Z (Z.of_nat n))%Q).
Proof.
  intros mi ma n Le. split; [apply make_bins_len|]. split; [apply make_bins_contiguous; auto|]. split; [|split].
  - intros f N. destruct n; [discriminate|].
    destruct (nth_error (make_bins mi ma (S n)) (S n - 1)) as [l|] eqn:Nl.
    + apply (make_bins_ends mi ma (S n) f l); auto. lia.
    + apply nth_error_None in Nl. rewrite make_bins_len in Nl. lia.
  - intros l Pn Nl. destruct (nth_error (make_bins mi ma n) 0) as [f|] eqn:Nf.
    + apply (make_bins_ends mi ma n f l); auto.
    + apply nth_error_None in Nf. rewrite make_bins_len in Nf. lia.
  - apply make_bins_width.
Qed.
Print Assumptions C26_make_bins.

Theorem C26_from_edges : forall v, 2 <= length v ->
  exists b, bins_from_edges v = Ok b /\ length b = length v - 1 /\
    (forall i lo hi, nth_error v i = Some lo -> nth_error v (i + 1) = Some hi -> nth_error b i = Some (lo, hi)) /\
    (nondecreasing v -> contiguous b).
Proof.
  intros v L. destruct (from_edges_ok v L) as (b & E & Lb & N). exists b.
  split; [exact E|]. split; [exact Lb|]. split; [exact N|]. exact (from_edges_contiguous v b E).
Qed.
Print Assumptions C26_from_edges.

Theorem C26_from_centers : forall v, 2 <= length v -> increasing v ->
  exists b, bins_from_centers v = Ok b /\ length b = length v /\ contiguous b /\
    (forall i c x, nth_error b i = Some c -> nth_error v i = Some x -> (fst c < x /\ x < snd c)%Q) /\
    (forall i c x y, nth_error b i = Some c -> nth_error v i = Some x -> nth_error v (i + 1) = Some y ->
        (snd c == (1 # 2) * (x + y))%Q).
Proof. exact from_centers_ok. Qed.
Print Assumptions C26_from_centers.

Theorem C26_too_few_nodes : forall v, length v < 2 -> bins_from_edges v = CheckFail /\ bins_from_centers v = CheckFail.
Proof.
  intros v L. unfold bins_from_edges, bins_from_centers. destruct (Nat.ltb_spec 1 (length v)); [lia|]. auto.
Qed.
Print Assumptions C26_too_few_nodes.

(* weights: each bin is the sum of the weights of its values *)
Theorem C26_weighted : forall part dims data weight bins, partitions part -> contiguous bins ->
  length weight = length data ->
  exists r, histogram_weighted part 2 dims dims data weight bins = Ok r /\ length r = length bins /\
    forall i w b f, nth_error r i = Some w -> nth_error bins i = Some b ->
      (forall id t, nth_error data id = Some t -> (f id = true <-> inside t b)) ->
      (w == qsum (map (fun id => nth id weight 0%Q) (filter f (seq 0 (length data)))))%Q.
Proof.
  intros part dims data weight bins P C L.
  destruct (weighted_ok part dims data weight bins P L) as (r & E & Lr & H). exists r.
  split; [exact E|]. split; [exact Lr|]. intros i w b f N Nb F. apply (H i w f N).
  intros id t Nt. rewrite (contiguous_first bins t i b C Nb). apply F. auto.
Qed.
Print Assumptions C26_weighted.

(* the version with a function: call number i gets the values of bin i; the calls stop early
   only after a bin that holds all the data *)
Theorem C26_callback : forall part data bins, partitions part ->
  exists calls, histogram_callback part 2 data bins = Ok calls /\
    length calls <= length bins /\
    (forall i ids b, nth_error calls i = Some ids -> nth_error bins i = Some b ->
       NoDup ids /\ forall id, In id ids <-> exists t, nth_error data id = Some t /\ inside t b) /\
    (length calls < length bins -> exists ids, nth_error calls (length calls - 1) = Some ids /\
       length ids = length data).
Proof.
  intros part data bins P. unfold histogram_callback. cbn [check Nat.eqb obind]. eexists. split; [reflexivity|].
  destruct (hist_calls_ok nat part (datum data) P bins 0 (seq 0 (length data))) as (L & C & S).
  split; [exact L|]. split.
  - intros i ids b N Nb. specialize (C i ids b N Nb). split.
    + eapply Permutation_NoDup; [apply Permutation_sym; exact C|]. apply NoDup_filter, seq_NoDup.
    + intros id. split.
      * intros I. apply (Permutation_in _ C) in I. apply filter_In in I. destruct I as [I B]. apply in_seq in I.
        destruct (nth_error data id) as [t|] eqn:Nt.
        -- exists t. split; auto. rewrite (datum_nth _ _ _ Nt) in B. now apply in_bin_inside.
        -- apply nth_error_None in Nt. lia.
      * intros (t & Nt & I). apply (Permutation_in _ (Permutation_sym C)). apply filter_In. split.
        -- apply in_seq. split; [lia|]. apply nth_error_Some. congruence.
        -- rewrite (datum_nth _ _ _ Nt). now apply in_bin_inside.
  - intros Lt. destruct (S Lt) as (l & N & Pl). exists l. split; [exact N|].
    rewrite (Permutation_length Pl). apply seq_length.
Qed.
Print Assumptions C26_callback.

(* With overlapping bins the two versions disagree: histogram counts a value once, the version
   with a function reports it for every bin that contains it ... *)
Theorem C26_callback_overlap_refuted : forall part, partitions part ->
  let data := [Some (1 # 2); Some 5]%Q in
  let bins := [(0, 2); (0, 1)]%Q in
  histogram part 2 (datum data) [0; 1] bins = Ok [1; 0] /\
  histogram_callback part 2 data bins = Ok [[0]; [0]].
Proof.
  intros part P data bins.
  destruct (C26_histogram _ part (datum data) [0; 1] bins P) as (c & E & L & H & _).
  destruct (C26_callback part data bins P) as (k & Ek & Lk & Hk & Sk).
  assert (D : forall b f l, (forall x, In x l -> f x = in_bin (datum data x) b) ->
     filter f l = filter (fun x => in_bin (datum data x) b) l).
  { intros. apply filter_iff. intros x I. now rewrite H0. }
  split.
  - rewrite E. f_equal. destruct c as [|c0 [|c1 [|]]]; try discriminate L.
    rewrite (H 0 c0 (fun t => fb bins 0 t) eq_refl (fun t => fb_first bins 0 t)).
    rewrite (H 1 c1 (fun t => fb bins 1 t) eq_refl (fun t => fb_first bins 1 t)). reflexivity.
  - rewrite Ek. f_equal.
    assert (S1 : forall ids, NoDup ids -> (forall id, In id ids <-> id = 0) -> ids = [0]).
    { intros ids ND I. destruct ids as [|a ids]; [destruct (proj2 (I 0)); auto|].
      assert (a = 0) by (apply I; now left). subst. destruct ids as [|b ids]; auto.
      assert (b = 0) by (apply I; right; now left). subst. inversion ND. exfalso. apply H2. now left. }
    assert (IN : forall b id, In b bins -> ((exists t, nth_error data id = Some t /\ inside t b) <-> id = 0)).
    { intros b id Ib. split.
      - intros (t & Nt & q & -> & Lo & Up). destruct id as [|[|id]]; auto.
        + injection Nt as <-. destruct Ib as [<-|[<-|[]]]; cbn in *; lra.
        + destruct id; discriminate.
      - intros ->. exists (Some (1 # 2)%Q). split; auto. exists (1 # 2)%Q. split; auto.
        destruct Ib as [<-|[<-|[]]]; cbn; split; lra. }
    assert (GK : forall i ids b, nth_error k i = Some ids -> nth_error bins i = Some b -> ids = [0]).
    { intros i ids b N Nb. destruct (Hk i ids b N Nb) as [ND I]. apply S1; auto.
      intros id. rewrite I. apply IN. eapply nth_error_In; eauto. }
    destruct k as [|k0 [|k1 [|]]]; cbn in Lk; try lia.
    + destruct Sk as (ids & N & _); [cbn; lia|]. discriminate N.
    + destruct Sk as (ids & N & Li); [cbn; lia|]. cbn in N. injection N as <-.
      rewrite (GK 0 k0 (0, 2)%Q eq_refl eq_refl) in Li. discriminate Li.
    + rewrite (GK 0 k0 (0, 2)%Q eq_refl eq_refl), (GK 1 k1 (0, 1)%Q eq_refl eq_refl). reflexivity.
Qed.
Print Assumptions C26_callback_overlap_refuted.

(* ... unless an earlier bin holds all the data: then the later bins are not reported at all,
   here the second bin, which contains the datum. *)
Theorem C26_callback_stops_refuted : forall part, partitions part ->
  let data := [Some (1 # 2)]%Q in
  let bins := [(0, 2); (0, 1)]%Q in
  exists ids, histogram_callback part 2 data bins = Ok [ids] /\
    inside (Some (1 # 2)%Q) (0, 1)%Q.
Proof.
  intros part P data bins. unfold histogram_callback. cbn [check Nat.eqb obind length seq hist_calls bins data].
  pose proof (P 0 (fun t => in_bin (datum data t) (0, 2)%Q) [0]) as H.
  unfold data in H. destruct (part 0 _ [0]) as [yes no]. destruct H as (Pm & _ & N).
  assert (no = []).
  { destruct no as [|x no]; auto. assert (In x [0]).
    { apply (Permutation_in _ Pm). apply in_or_app. right. now left. }
    destruct H as [<-|[]]. specialize (N 0 (or_introl eq_refl)). discriminate N. }
  subst no. cbn. exists yes. split; auto. exists (1 # 2)%Q. cbn. split; auto. split; lra.
Qed.
Print Assumptions C26_callback_stops_refuted.

(* two dimensions *)
Theorem C26_histogram2d : forall part dims x y xbins ybins, partitions part ->
  contiguous xbins -> contiguous ybins -> length x = length y ->
  exists h, histogram2d part 2 2 dims dims x y xbins ybins = Ok h /\ length h = length xbins /\
    forall i row, nth_error h i = Some row -> length row = length ybins /\
      forall j c bx by_ f, nth_error row j = Some c -> nth_error xbins i = Some bx -> nth_error ybins j = Some by_ ->
        (forall s t, f (s, t) = true <-> inside s bx /\ inside t by_) ->
        c = length (filter f (combine x y)).
Proof.
  intros part dims x y xbins ybins P Cx Cy L.
  destruct (histogram2d_ok part dims x y xbins ybins P L) as (h & E & Lh & H). exists h.
  split; [exact E|]. split; [exact Lh|]. intros i row N. destruct (H i row N) as [Lr R]. split; [exact Lr|].
  intros j c bx by_ f Nc Nx Ny F. apply (R j c f Nc). intros s t.
  rewrite (contiguous_first xbins s i bx Cx Nx), (contiguous_first ybins t j by_ Cy Ny). apply F.
Qed.
Print Assumptions C26_histogram2d.

(* a bin array with another first dimension, or weights of another shape, are rejected *)
Theorem C26_checks : forall A (part : nat -> (A -> bool) -> list A -> list A * list A) val data bins d0,
  (d0 <> 2 -> histogram part d0 val data bins = CheckFail) /\
  (forall p dd wd v w, d0 <> 2 \/ dd <> wd -> histogram_weighted p d0 dd wd v w bins = CheckFail) /\
  (forall p v, d0 <> 2 -> histogram_callback p d0 v bins = CheckFail) /\
  (forall p e0 xd yd x y yb, d0 <> 2 \/ e0 <> 2 \/ xd <> yd -> histogram2d p d0 e0 xd yd x y bins yb = CheckFail).
Proof.
  intros. split; [|split; [|split]].
  - intros H. unfold histogram. destruct (Nat.eqb_spec d0 2); [lia|auto].
  - intros p dd wd v w H. unfold histogram_weighted. destruct (Nat.eqb_spec d0 2); cbn; auto.
    destruct (list_eq_dec Nat.eq_dec dd wd); auto. destruct H; [lia|congruence].
  - intros p v H. unfold histogram_callback. destruct (Nat.eqb_spec d0 2); [lia|auto].
  - intros p e0 xd yd x y yb H. unfold histogram2d. destruct (Nat.eqb_spec d0 2); cbn; auto.
    destruct (Nat.eqb_spec e0 2); cbn; auto.
    destruct (list_eq_dec Nat.eq_dec xd yd); auto. destruct H as [|[|]]; [lia|lia|congruence].
Qed.
Print Assumptions C26_checks.

(* in_bin is [lower, upper); NaN is in no bin *)
Theorem C26_in_bin : forall t bins ib b, nth_error bins ib = Some b ->
  exists r, in_bin_of t bins ib = Ok r /\ (r = true <-> inside t b).
Proof.
  intros t bins ib b N. unfold in_bin_of. assert (ib < length bins) by (apply nth_error_Some; congruence).
  destruct (Nat.ltb_spec ib (length bins)); [|lia]. cbn [check obind].
  rewrite (proj2 (oget_Ok _ _ _ _) N). cbn [obind]. eexists. split; [reflexivity|]. apply in_bin_inside.
Qed.
Print Assumptions C26_in_bin.

(* in_bin_open: with two bins or more every number is in exactly one of them ... *)
Theorem C26_in_bin_open : forall bins q, contiguous bins -> 2 <= length bins ->
  exists i, in_bin_open (Some q) bins i = Ok true /\
    forall j, in_bin_open (Some q) bins j = Ok true -> j = i.
Proof. exact in_bin_open_unique. Qed.
Print Assumptions C26_in_bin_open.
(* ... but a single bin is closed on the right *)
Theorem C26_in_bin_open_single_refuted :
  exists bins q, contiguous bins /\ length bins = 1 /\ in_bin_open (Some q) bins 0 = Ok false.
Proof.
  exists [(0, 1)%Q], 1%Q. split; [|split; reflexivity]. split.
  - intros b [<-|[]]. cbn. lra.
  - intros k a b _ N. destruct k as [|k]; cbn in N; [discriminate|destruct k; discriminate].
Qed.
Print Assumptions C26_in_bin_open_single_refuted.

Definition stable_part {A} (_ : nat) (p : A -> bool) (l : list A) :=
  (filter p l, filter (fun x => negb (p x)) l).
Example C26_ex :
  partitions (@stable_part nat) /\
  histogram stable_part 2 (fun t => t) [Some 0; Some (1 # 2); Some 1; None; Some 2; Some (-1)]%Q (make_bins 0 2 2)
    = Ok [2; 1] /\
  histogram_weighted stable_part 2 [3] [3] [Some 0; Some 1; Some 0]%Q [1; 2; 3]%Q (make_bins 0 2 2)
    = Ok [4; 2]%Q.
Proof.
  split; [|split; reflexivity].
  intros k p l. unfold stable_part. split; [|split].
  - induction l; cbn; auto. destruct (p a); cbn; auto. apply Permutation_sym, Permutation_cons_app, Permutation_sym; exact IHl.
  - intros x I. apply filter_In in I. tauto.
  - intros x I. apply filter_In in I. destruct I as [_ I]. now apply Bool.negb_true_iff in I.
Qed.

(* C27 *)
Theorem C27_cumul : forall y, exists r, cumul y = Ok r /\ length r = length y /\
  forall i, i < length y -> nth_error r i = Some (zsum_upto i y).
Proof. exact cumul_ok. Qed.
Print Assumptions C27_cumul.

(* cumul_reverse returns y[i] + y[i+1] *)
Theorem C27_cumul_reverse : forall y, exists r, cumul_reverse y = Ok r /\ length r = length y /\
  forall i, i < length y -> nth_error r i = Some (nth i y 0 + nth (i + 1) y 0)%Z.
Proof. exact cumul_reverse_ok. Qed.
Print Assumptions C27_cumul_reverse.

(* which is the sum of y[i..] when at most two elements are left, ... *)
Theorem C27_cumul_reverse_short : forall y r i, cumul_reverse y = Ok r -> i < length y -> length y <= i + 2 ->
  nth_error r i = Some (zsum_from i y).
Proof.
  intros y r i E Li L. destruct (cumul_reverse_ok y) as (r' & E' & _ & H). assert (r' = r) by congruence. subst.
  rewrite H by auto. f_equal. unfold pair_sum, zsum_from.
  assert (G : forall (i : nat) (y : list Z), i < length y -> length y <= i + 2 ->
     (nth i y 0 + nth (i + 1) y 0)%Z = fold_right Z.add 0%Z (skipn i y)).
  { clear. induction i; intros y Li L.
    - destruct y as [|a [|b [|]]]; cbn in *; lia.
    - destruct y; cbn in *; [lia|]. apply IHi; lia. }
  auto.
Qed.
Print Assumptions C27_cumul_reverse_short.
(* ... and not otherwise *)
Theorem C27_cumul_reverse_refuted : exists y r i, cumul_reverse y = Ok r /\ i < length y /\
  nth_error r i <> Some (zsum_from i y).
Proof. exists [1; 2; 3]%Z, [3; 5; 3]%Z, 0. split; [reflexivity|]. split; [cbn; lia|]. discriminate. Qed.
Print Assumptions C27_cumul_reverse_refuted.

Example C27_ex : cumul [1; 2; 3; -1]%Z = Ok [1; 3; 6; 5]%Z /\ cumul_reverse [4; 2]%Z = Ok [6; 2]%Z.
Proof. split; reflexivity. Qed.
