(* Proofs for histograms. *)
From Coq Require Import QArith Permutation Lqa.
From Verif Require Import Base OrderModel InterpModel HistModel HistSpec IndexProofs VecProofs InterpProofs
  ReduceProofs ReduceProofs2 ReduceProofs3.
Local Open Scope nat_scope.

Lemma filter_perm : forall {A} (p : A -> bool) l l', Permutation l l' -> Permutation (filter p l) (filter p l').
Proof.
  induction 1; cbn; auto.
  - destruct (p x); auto.
  - destruct (p y), (p x); auto using perm_swap.
  - eauto using Permutation_trans.
Qed.

Lemma in_bin_inside : forall t b, in_bin t b = true <-> inside t b.
Proof.
  intros [q|] b; unfold in_bin, inside.
  - rewrite Bool.andb_true_iff, Qle_bool_iff, qlt_true. split.
    + intros [? ?]. exists q. auto.
    + intros (q' & E & ? & ?). injection E as <-. auto.
  - split; [discriminate|intros (q & E & _); discriminate].
Qed.

Section Loop.
Context {A : Type}.
Variable part : nat -> (A -> bool) -> list A -> list A * list A.
Hypothesis PART : partitions part.

Lemma part_filter : forall k p l yes no, part k p l = (yes, no) ->
  Permutation yes (filter p l) /\ Permutation no (filter (fun x => negb (p x)) l).
Proof.
  intros k p l yes no E. pose proof (PART k p l) as H. rewrite E in H. destruct H as (P & Y & N).
  assert (Fy : forall q : A -> bool, (forall x, In x yes -> q x = true) -> filter q yes = yes).
  { intros q. clear. induction yes; cbn; intros; auto. rewrite H by auto. f_equal. auto. }
  assert (Fn : forall (q : A -> bool) l, (forall x, In x l -> q x = false) -> filter q l = []).
  { intros q m. clear. induction m; cbn; intros; auto. rewrite H by auto. auto. }
  assert (Fno : forall q : A -> bool, (forall x, In x no -> q x = true) -> filter q no = no).
  { intros q. clear. induction no; cbn; intros; auto. rewrite H by auto. f_equal. auto. }
  split.
  - rewrite <- (filter_perm p _ _ P), filter_app, (Fy p Y), (Fn p no N), app_nil_r. auto.
  - rewrite <- (filter_perm (fun x => negb (p x)) _ _ P), filter_app.
    rewrite (Fn (fun x => negb (p x)) yes), (Fno (fun x => negb (p x))); auto.
    + intros x H. rewrite (N x H). auto.
    + intros x H. rewrite (Y x H). auto.
Qed.

(* the elements of bin i that are in no earlier bin *)
Fixpoint fb (bins : list bin) (i : nat) (t : option Q) : bool :=
  match bins, i with
  | [], _ => false
  | b :: _, 0 => in_bin t b
  | b :: bs, S i => negb (in_bin t b) && fb bs i t
  end.

Lemma filter_filter : forall (p q : A -> bool) l, filter p (filter q l) = filter (fun x => q x && p x) l.
Proof. induction l; cbn; auto. destruct (q a); cbn; [destruct (p a); cbn|]; congruence. Qed.

Lemma hist_loop_len : forall val bins k rest, length (hist_loop part val k rest bins) = length bins.
Proof.
  induction bins; cbn; intros; auto.
  destruct (part k _ rest) as [yes no]. cbn. f_equal. destruct (_ =? 0); auto. now rewrite map_length.
Qed.

Lemma hist_loop_perm : forall val bins k rest i l,
  nth_error (hist_loop part val k rest bins) i = Some l ->
  Permutation l (filter (fun x => fb bins i (val x)) rest).
Proof.
  induction bins; intros k rest i l N; [destruct i; discriminate|].
  cbn in N. destruct (part k _ rest) as [yes no] eqn:E. apply part_filter in E. destruct E as [Y No].
  destruct i; cbn in N |- *.
  { injection N as <-. auto. }
  assert (G : forall m, Permutation m no ->
      Permutation (filter (fun x => fb bins i (val x)) m)
        (filter (fun x => negb (in_bin (val x) a) && fb bins i (val x)) rest)).
  { intros m Pm. rewrite (filter_perm _ _ _ (Permutation_trans Pm No)), filter_filter. auto. }
  destruct (length no =? 0) eqn:Z.
  - apply Nat.eqb_eq, length_zero_iff_nil in Z. subst.
    rewrite nth_error_map in N. destruct (nth_error bins i); [|discriminate]. injection N as <-.
    apply (G []). auto.
  - apply IHbins in N. eapply Permutation_trans; [exact N|]. apply G. auto.
Qed.

Lemma fb_first : forall bins i t, fb bins i t = true <-> first_bin bins t i.
Proof.
  induction bins; intros i t.
  - cbn. split; [discriminate|]. intros ((b & N & _) & _). destruct i; discriminate.
  - destruct i; cbn.
    + rewrite in_bin_inside. split.
      * intros H. split; [exists a; auto|intros; lia].
      * intros ((b & N & H) & _). cbn in N. injection N as <-. auto.
    + rewrite Bool.andb_true_iff, IHbins, Bool.negb_true_iff. split.
      * intros (H & (b & N & I) & F). split; [exists b; auto|].
        intros [|j] c Lt Nj; cbn in Nj.
        -- injection Nj as <-. rewrite <- in_bin_inside. congruence.
        -- apply (F j c); auto; lia.
      * intros ((b & N & I) & F). split; [|split].
        -- destruct (in_bin t a) eqn:E; auto. apply in_bin_inside in E.
           exfalso. apply (F 0 a); auto; lia.
        -- exists b. auto.
        -- intros j c Lt Nj. apply (F (S j) c); auto; lia.
Qed.

Lemma hist_total : forall val bins k rest,
  Permutation (concat (hist_loop part val k rest bins))
    (filter (fun x => existsb (fun b => in_bin (val x) b) bins) rest).
Proof.
  induction bins; intros k rest.
  - cbn. induction rest; cbn; auto.
  - cbn. destruct (part k _ rest) as [yes no] eqn:E. apply part_filter in E. destruct E as [Y No]. cbn.
    assert (G : Permutation (concat (if length no =? 0 then map (fun _ => []) bins else hist_loop part val (S k) no bins))
                  (filter (fun x => existsb (fun b => in_bin (val x) b) bins) no)).
    { destruct (length no =? 0) eqn:Z; [|apply IHbins].
      apply Nat.eqb_eq, length_zero_iff_nil in Z. subst. cbn.
      replace (concat _) with (@nil A); auto. clear. induction bins; cbn; auto. }
    rewrite Y, G, (filter_perm _ _ _ No), filter_filter.
    clear. induction rest; cbn; auto.
    destruct (in_bin (val a0) a); cbn; auto.
    destruct (existsb _ bins); auto.
    rewrite <- IHrest. symmetry. apply Permutation_middle.
Qed.
End Loop.

Lemma filter_iff : forall {A} (f g : A -> bool) l, (forall x, In x l -> (f x = true <-> g x = true)) -> filter f l = filter g l.
Proof.
  induction l; cbn; intros H; auto. rewrite IHl by auto.
  destruct (f a) eqn:E, (g a) eqn:E'; auto; exfalso.
  - apply H in E; auto. congruence.
  - apply H in E'; auto. congruence.
Qed.

Lemma contiguous_before : forall bins, contiguous bins -> forall j i a b, i < j ->
  nth_error bins i = Some a -> nth_error bins j = Some b -> (snd a <= fst b)%Q.
Proof.
  intros bins [O C]. induction j; intros i a b Lt Ni Nj; [lia|].
  destruct (nth_error bins j) as [c|] eqn:Nc.
  - assert (snd c == fst b)%Q as E by (apply (C j); auto; now rewrite Nat.add_1_r).
    destruct (Nat.eq_dec i j) as [->|].
    + assert (c = a) by congruence. subst. rewrite E. apply Qle_refl.
    + assert (snd a <= fst c)%Q by (apply (IHj i); auto; lia).
      assert (fst c <= snd c)%Q by (apply O; eapply nth_error_In; eauto). lra.
  - apply nth_error_None in Nc. assert (nth_error bins (S j) = None) by (apply nth_error_None; lia). congruence.
Qed.

Lemma contiguous_first : forall bins t i b, contiguous bins -> nth_error bins i = Some b ->
  (first_bin bins t i <-> inside t b).
Proof.
  intros bins t i b C N. split.
  - intros ((c & Nc & I) & _). congruence.
  - intros I. split; [exists b; auto|]. intros j c Lt Nj (q & -> & Lo & Up).
    destruct I as (q' & E & L & U). injection E as <-.
    pose proof (contiguous_before _ C i j c b Lt Nj N). lra.
Qed.

Lemma contiguous_hull : forall bins t first last,
  contiguous bins -> nth_error bins 0 = Some first -> nth_error bins (length bins - 1) = Some last ->
  ((exists b, In b bins /\ inside t b) <-> inside t (fst first, snd last)).
Proof.
  intros bins t first last C N0 Nl. split.
  - intros (b & I & q & -> & Lo & Up). exists q. split; auto. cbn.
    apply In_nth_error in I. destruct I as (i & Ni).
    assert (i < length bins) by (apply nth_error_Some; congruence).
    assert (ord : forall c, In c bins -> (fst c <= snd c)%Q) by apply C.
    split.
    + destruct i; [congruence|].
      assert (snd first <= fst b)%Q by (apply (contiguous_before _ C (S i) 0); auto; lia).
      assert (fst first <= snd first)%Q by (apply ord; eapply nth_error_In; eauto). lra.
    + destruct (Nat.eq_dec i (length bins - 1)) as [->|]; [congruence|].
      assert (snd b <= fst last)%Q by (apply (contiguous_before _ C (length bins - 1) i); auto; lia).
      assert (fst last <= snd last)%Q by (apply ord; eapply nth_error_In; eauto). lra.
  - intros (q & -> & Lo & Up). cbn in Lo, Up.
    assert (G : forall n, n < length bins -> (exists b, In b bins /\ inside (Some q) b) \/
       exists c, nth_error bins n = Some c /\ (snd c <= q)%Q).
    { induction n; intros Ln.
      - destruct (Qlt_le_dec q (snd first)) as [Q1|Q1]; [left|right; eauto].
        exists first. split; [eapply nth_error_In; eauto|]. exists q. auto.
      - destruct IHn as [?|(c & Nc & Le)]; [lia|auto|].
        destruct (nth_error bins (S n)) as [d|] eqn:Nd; [|apply nth_error_None in Nd; lia].
        assert (snd c == fst d)%Q by (apply (proj2 C n); auto; now rewrite Nat.add_1_r).
        destruct (Qlt_le_dec q (snd d)) as [Q1|Q1]; [left|right; eauto].
        exists d. split; [eapply nth_error_In; eauto|]. exists q. split; auto. split; lra. }
    assert (0 < length bins) by (apply nth_error_Some; congruence).
    destruct (G (length bins - 1)) as [?|(c & Nc & Le)]; [lia|auto|].
    assert (c = last) by congruence. subst. lra.
Qed.

Lemma histogram_ok : forall A part (val : A -> option Q) data bins, partitions part ->
  exists counts, histogram part 2 val data bins = Ok counts /\ length counts = length bins /\
    (forall i c f, nth_error counts i = Some c ->
      (forall t, f t = true <-> first_bin bins t i) -> c = length (filter (fun x => f (val x)) data)) /\
    (forall f, (forall t, f t = true <-> exists b, In b bins /\ inside t b) ->
      list_sum counts = length (filter (fun x => f (val x)) data)).
Proof.
  intros A part val data bins PART. unfold histogram. cbn [check Nat.eqb obind].
  eexists. split; [reflexivity|]. split; [|split].
  - rewrite map_length, hist_loop_len; auto.
  - intros i c f N F. rewrite nth_error_map in N.
    destruct (nth_error (hist_loop _ _ _ _ _) i) as [l|] eqn:E; [|discriminate]. injection N as <-.
    apply (hist_loop_perm _ PART) in E. rewrite (Permutation_length E). f_equal. apply filter_iff.
    intros x _. rewrite fb_first, F. tauto.
  - intros f F. rewrite <- (filter_iff (fun x => existsb (fun b => in_bin (val x) b) bins)).
    + rewrite <- (Permutation_length (hist_total _ PART val bins 0 data)).
      generalize (hist_loop part val 0 data bins). intros l. induction l; cbn; auto.
      rewrite app_length. auto.
    + intros x _. rewrite existsb_exists, F. split; intros (b & I & H); exists b; split; auto; now apply in_bin_inside.
Qed.

(* weights *)
Lemma wsum_ok : forall weight ids s, (forall id, In id ids -> id < length weight) ->
  exists r, ofold (fun s id => w <- oget weight id ;; Ok (s + w)%Q) ids s = Ok r /\
    (r == s + qs (fun id => nth id weight 0%Q) ids)%Q.
Proof.
  induction ids; intros s H.
  - exists s. split; auto. unfold qs. cbn. ring.
  - cbn [ofold]. destruct (nth_error weight a) as [w|] eqn:N.
    2:{ apply nth_error_None in N. specialize (H a (or_introl eq_refl)). lia. }
    rewrite (proj2 (oget_Ok _ _ _ _) N). cbn [obind].
    destruct (IHids (s + w)%Q) as (r & E & R); [intros; apply H; now right|].
    exists r. split; auto. rewrite R, qs_cons. rewrite (nth_error_nth _ _ 0%Q N). ring.
Qed.

Lemma datum_nth : forall data id t, nth_error data id = Some t -> datum data id = t.
Proof. unfold datum. intros. now rewrite H. Qed.

Lemma weighted_ok : forall part dims data weight bins, partitions part -> length weight = length data ->
  exists r, histogram_weighted part 2 dims dims data weight bins = Ok r /\ length r = length bins /\
    forall i w f, nth_error r i = Some w ->
      (forall id t, nth_error data id = Some t -> (f id = true <-> first_bin bins t i)) ->
      (w == qs (fun id => nth id weight 0%Q) (filter f (seq 0 (length data))))%Q.
Proof.
  intros part dims data weight bins PART L. unfold histogram_weighted. cbn [check Nat.eqb obind].
  destruct (list_eq_dec Nat.eq_dec dims dims); [|congruence]. cbn [check obind].
  set (H := hist_loop part (datum data) 0 (seq 0 (length data)) bins).
  assert (HP : forall i l, nth_error H i = Some l ->
     Permutation l (filter (fun id => fb bins i (datum data id)) (seq 0 (length data))))
    by (intros; apply (hist_loop_perm _ PART) in H0; auto).
  assert (W : forall l, In l H -> exists r, ofold (fun s id => w <- oget weight id ;; Ok (s + w)%Q) l 0%Q = Ok r /\
     (r == qs (fun id => nth id weight 0%Q) l)%Q).
  { intros l I. apply In_nth_error in I. destruct I as (i & N).
    destruct (wsum_ok weight l 0%Q) as (r & E & R).
    - intros id I. eapply Permutation_in in I; [|apply (HP _ _ N)].
      apply filter_In in I. destruct I as [I _]. apply in_seq in I. lia.
    - exists r. split; [exact E|]. rewrite R. ring. }
  destruct (omapl_ok _ _ (fun ids => ofold (fun s id => w <- oget weight id ;; Ok (s + w)%Q) ids 0%Q)
     (fun ids => match ofold (fun s id => w <- oget weight id ;; Ok (s + w)%Q) ids 0%Q with Ok y => Some y | _ => None end) H)
     as (r & E & Lr & R).
  { intros l I. destruct (W l I) as (r & E & _). exists r. rewrite E. auto. }
  exists r. split; [exact E|]. split.
  - rewrite Lr. apply hist_loop_len.
  - intros i w f N F.
    destruct (nth_error H i) as [l|] eqn:Nl.
    2:{ apply nth_error_None in Nl. assert (i < length r) by (apply nth_error_Some; congruence). lia. }
    destruct (W l (nth_error_In _ _ Nl)) as (w' & E' & Hw).
    rewrite (R _ _ Nl), E' in N. injection N as ->. rewrite Hw.
    rewrite (qs_perm _ _ _ (HP _ _ Nl)), (filter_iff _ f); [reflexivity|].
    intros id I. apply in_seq in I. destruct (nth_error data id) as [t|] eqn:Nt.
    + rewrite (datum_nth _ _ _ Nt), fb_first, (F id t Nt). tauto.
    + apply nth_error_None in Nt. lia.
Qed.

(* the version with a function: every bin is filled from all the data *)
Lemma hist_calls_ok : forall A (part : nat -> (A -> bool) -> list A -> list A * list A) val, partitions part ->
  forall bins k ids,
  length (hist_calls part val k ids bins) <= length bins /\ (forall i l b, nth_error (hist_calls part val k ids bins) i = Some l -> nth_error bins i = Some b ->
     Permutation l (filter (fun x => in_bin (val x) b) ids)) /\ (length (hist_calls part val k ids bins) < length bins ->
     exists l, nth_error (hist_calls part val k ids bins) (length (hist_calls part val k ids bins) - 1) = Some l /\      Permutation l ids).
Proof.
  intros A part val PART. induction bins; intros k ids.
  { cbn. split; [lia|split; [intros [|i] l b N; discriminate|lia]]. }
  cbn. pose proof (PART k (fun x => in_bin (val x) a) ids) as P0.
  destruct (part k _ ids) as [yes no] eqn:E. destruct P0 as (P0 & _).
  apply (part_filter _ PART) in E. destruct E as [Y No].
  destruct (length no =? 0) eqn:Z.
  - apply Nat.eqb_eq, length_zero_iff_nil in Z. subst. rewrite app_nil_r in P0. cbn. split; [lia|]. split.
    + intros [|[|i]] l b N Nb; cbn in *; try discriminate. injection N as <-. injection Nb as <-. auto.
    + intros _. exists yes. auto.
  - destruct (IHbins (S k) (yes ++ no)) as (L & C & S). cbn. split; [lia|]. split.
    + intros [|i] l b N Nb; cbn in *.
      * injection N as <-. injection Nb as <-. auto.
      * eapply Permutation_trans; [eapply C; eauto|]. apply filter_perm. auto.
    + intros Lt. destruct S as (l & N & P); [lia|]. exists l. split; [|eauto using Permutation_trans].
      rewrite Nat.sub_0_r. destruct (length (hist_calls part val (S k) (yes ++ no) bins)) eqn:Ez.
      * destruct (hist_calls part val (S k) (yes ++ no) bins); [discriminate N|discriminate Ez].
      * cbn [nth_error]. rewrite <- N. f_equal. lia.
Qed.

(* 2D *)
Lemma hist2_loop_ok : forall A (part : nat -> (A -> bool) -> list A -> list A * list A) vx vy ybins, partitions part ->
  forall xbins k rest, length (hist2_loop part vx vy k rest xbins ybins) = length xbins /\ forall i row, nth_error (hist2_loop part vx vy k rest xbins ybins) i = Some row ->
    length row = length ybins /\   forall j l, nth_error row j = Some l ->
      Permutation l (filter (fun x => fb xbins i (vx x) && fb ybins j (vy x)) rest).
Proof.
  intros A part vx vy ybins PART. induction xbins; intros k rest.
  { cbn. split; auto. intros [|i] row N; discriminate. }
  cbn. destruct (part k _ rest) as [yes no] eqn:E. apply (part_filter _ PART) in E. destruct E as [Y No].
  split.
  { cbn. f_equal. destruct (length no =? 0); [now rewrite map_length|apply IHxbins]. }
  intros [|i] row N; cbn in N.
  - injection N as <-. split; [apply hist_loop_len|]. intros j l N.
    apply (hist_loop_perm _ PART) in N. rewrite N, (filter_perm _ _ _ Y), filter_filter. auto.
  - assert (G : forall j, Permutation (filter (fun x => fb xbins i (vx x) && fb ybins j (vy x)) no)
       (filter (fun x => negb (in_bin (vx x) a) && fb xbins i (vx x) && fb ybins j (vy x)) rest)).
    { intros j. rewrite (filter_perm _ _ _ No), filter_filter.
      rewrite (filter_iff _ (fun x => negb (in_bin (vx x) a) && fb xbins i (vx x) && fb ybins j (vy x))); auto.
      intros x _. rewrite !Bool.andb_true_iff. tauto. }
    destruct (length no =? 0) eqn:Z.
    + apply Nat.eqb_eq, length_zero_iff_nil in Z. subst.
      rewrite nth_error_map in N. destruct (nth_error xbins i); [|discriminate]. injection N as <-.
      split; [now rewrite map_length|]. intros j l Nl.
      rewrite nth_error_map in Nl. destruct (nth_error ybins j); [|discriminate]. injection Nl as <-.
      apply (G j).
    + destruct (IHxbins (k + S (length ybins)) no) as [_ H]. destruct (H _ _ N) as [L P]. split; auto.
      intros j l Nl. rewrite (P _ _ Nl). apply G.
Qed.

Lemma histogram2d_ok : forall part dims x y xbins ybins, partitions part -> length x = length y ->
  exists h, histogram2d part 2 2 dims dims x y xbins ybins = Ok h /\ length h = length xbins /\   forall i row, nth_error h i = Some row -> length row = length ybins /\     forall j c f, nth_error row j = Some c ->
        (forall s t, f (s, t) = true <-> first_bin xbins s i /\ first_bin ybins t j) ->
        c = length (filter f (combine x y)).
Proof.
  intros part dims x y xbins ybins PART L. unfold histogram2d. cbn [check Nat.eqb obind].
  destruct (list_eq_dec Nat.eq_dec dims dims); [|congruence]. cbn [check obind].
  eexists. split; [reflexivity|].
  destruct (hist2_loop_ok nat part (datum x) (datum y) ybins PART xbins 0 (seq 0 (length x))) as [L2 H].
  split; [rewrite map_length; auto|].
  intros i row N. rewrite nth_error_map in N.
  destruct (nth_error (hist2_loop _ _ _ _ _ _ _) i) as [r|] eqn:Nr; [|discriminate]. injection N as <-.
  destruct (H _ _ Nr) as [Lr P]. split; [rewrite map_length; auto|].
  intros j c f N F. rewrite nth_error_map in N. destruct (nth_error r j) as [l|] eqn:Nl; [|discriminate].
  injection N as <-. rewrite (Permutation_length (P _ _ Nl)).
  assert (E : combine x y = map (fun k => (datum x k, datum y k)) (seq 0 (length x))).
  { apply list_eq_nth_error. intros k. rewrite nth_error_map.
    destruct (Nat.lt_ge_cases k (length x)) as [Lt|Ge].
    - rewrite nth_error_seq0 by auto. cbn.
      destruct (nth_error x k) as [a|] eqn:Na; [|apply nth_error_None in Na; lia].
      destruct (nth_error y k) as [b|] eqn:Nb; [|apply nth_error_None in Nb; lia].
      rewrite (datum_nth _ _ _ Na), (datum_nth _ _ _ Nb). rewrite nth_combine, Na, Nb; auto.
    - rewrite (proj2 (nth_error_None (combine x y) k)) by (rewrite combine_length; lia).
      rewrite (proj2 (nth_error_None (seq 0 (length x)) k)); auto. rewrite seq_length. lia. }
  rewrite E.
  assert (M : forall l, length (filter f (map (fun k => (datum x k, datum y k)) l)) =
     length (filter (fun k => f (datum x k, datum y k)) l)).
  { induction l0; cbn; auto. destruct (f _); cbn; auto. }
  rewrite M. f_equal. apply filter_iff. intros k _.
  rewrite Bool.andb_true_iff, !fb_first, F. tauto.
Qed.
