(* Lemmas on matrices, part 1: what the loops over the stored elements compute, element by element. *)
From Coq Require Import NArith ZifyBool ZifyNat.
From Verif Require Import Base IndexModel IndexProofs VecModel VecProofs ImageModel ImageSpec ImageProofs MatModel.

(* ---- loops ---- *)
Lemma ofold_seq_inv {S} (I : nat -> S -> Prop) (f : S -> nat -> outcome S) : forall b a s,
  I a s ->
  (forall k s, a <= k < a + b -> I k s -> exists s', f s k = Ok s' /\ I (k + 1) s') ->
  exists s', ofold f (seq a b) s = Ok s' /\ I (a + b) s'.
Proof.
  induction b as [|b IH]; intros a s H0 Hs.
  - exists s. cbn [seq ofold]. split; [reflexivity|]. replace (a + 0) with a by lia. exact H0.
  - cbn [seq ofold]. destruct (Hs a s) as (s1 & E & H1); [lia|exact H0|]. rewrite E. cbn [obind].
    destruct (IH (a + 1) s1 H1) as (s2 & E2 & H2).
    { intros k s' Hk. apply Hs. lia. }
    exists s2. replace (Datatypes.S a) with (a + 1) by lia. split; [exact E2|].
    replace (a + Datatypes.S b) with (a + 1 + b) by lia. exact H2.
Qed.

Lemma ofold_rev_inv {S} (I : nat -> S -> Prop) (f : S -> nat -> outcome S) : forall b s,
  I b s ->
  (forall k s, k < b -> I (k + 1) s -> exists s', f s k = Ok s' /\ I k s') ->
  exists s', ofold f (rev (seq 0 b)) s = Ok s' /\ I 0 s'.
Proof.
  induction b as [|b IH]; intros s H0 Hs.
  - exists s. split; [reflexivity | exact H0].
  - rewrite seq_S, rev_app_distr. cbn [rev app Nat.add ofold].
    destruct (Hs b s) as (s1 & E & H1); [lia| |].
    { replace (b + 1) with (Datatypes.S b) by lia. exact H0. }
    rewrite E. cbn [obind]. apply IH; [exact H1|]. intros k s' Hk. apply Hs. lia.
Qed.

Lemma ofold_list_prod {S A B} (f : S -> A * B -> outcome S) (ys : list B) : forall xs s,
  ofold f (list_prod xs ys) s = ofold (fun s x => ofold (fun s y => f s (x, y)) ys s) xs s.
Proof.
  induction xs as [|x xs IH]; intros s; [reflexivity|]. cbn [list_prod ofold].
  rewrite ofold_app.
  assert (E : ofold f (map (fun y => (x, y)) ys) s = ofold (fun s y => f s (x, y)) ys s).
  { clear IH. revert s. induction ys as [|y ys IHy]; intros s; [reflexivity|]. cbn [map ofold].
    destruct (f s (x, y)); cbn [obind]; auto. }
  rewrite E. destruct (ofold (fun s y => f s (x, y)) ys s); cbn [obind]; auto.
Qed.

Section M.
Context {F : Type}.
Implicit Types (d : list F) (M : nat -> nat -> F).

(* d holds the n x m matrix M *)
Definition rep (n m : nat) d M : Prop :=
  length d = n * m /\ forall i j, i < n -> j < m -> nth_error d (i * m + j) = Some (M i j).
(* r holds the vector V *)
Definition repv (n : nat) (r : list F) (V : nat -> F) : Prop :=
  length r = n /\ forall i, i < n -> nth_error r i = Some (V i).

Definition upd2 M (i j : nat) (a : F) := fun i' j' => if (i' =? i) && (j' =? j) then a else M i' j'.
Definition upd1 (V : nat -> F) (i : nat) (a : F) := fun i' => if i' =? i then a else V i'.

Lemma rep_ext n m d M M' : rep n m d M -> (forall i j, i < n -> j < m -> M i j = M' i j) -> rep n m d M'.
Proof. intros (L & H) E. split; [exact L|]. intros i j Hi Hj. rewrite <- E by assumption. auto. Qed.
Lemma repv_ext n r V V' : repv n r V -> (forall i, i < n -> V i = V' i) -> repv n r V'.
Proof. intros (L & H) E. split; [exact L|]. intros i Hi. rewrite <- E by assumption. auto. Qed.
Lemma rep_fun n m d M M' i j : rep n m d M -> rep n m d M' -> i < n -> j < m -> M i j = M' i j.
Proof. intros (_ & H) (_ & H') Hi Hj. specialize (H i j Hi Hj). rewrite H' in H by assumption. congruence. Qed.

Lemma rep_get n m d M i j : rep n m d M -> i < n -> j < m -> at2 m d i j = Ok (M i j).
Proof. intros (L & H) Hi Hj. unfold at2, oget. rewrite H by assumption. reflexivity. Qed.
Lemma rep_set n m d M i j a : rep n m d M -> i < n -> j < m ->
  exists d', pset m d i j a = Ok d' /\ rep n m d' (upd2 M i j a).
Proof.
  intros (L & H) Hi Hj. unfold pset, oset. pose proof (pos_lt n m i j Hi Hj).
  destruct (Nat.ltb_spec (i * m + j) (length d)); [|lia].
  eexists. split; [reflexivity|]. split; [rewrite upd_length; exact L|].
  intros i' j' Hi' Hj'. rewrite nth_error_upd. unfold upd2.
  destruct (Nat.ltb_spec (i * m + j) (length d)); [|lia].
  destruct (Nat.eqb_spec (i' * m + j') (i * m + j)) as [E|E]; cbn [andb].
  - destruct (pos_inj m i' j' i j Hj' Hj E) as (-> & ->). rewrite !Nat.eqb_refl. reflexivity.
  - destruct (Nat.eqb_spec i' i), (Nat.eqb_spec j' j); cbn [andb]; subst; auto. congruence.
Qed.
Lemma repv_get n r V i : repv n r V -> i < n -> oget r i = Ok (V i).
Proof. intros (L & H) Hi. unfold oget. rewrite H by assumption. reflexivity. Qed.
Lemma repv_set n r V i a : repv n r V -> i < n -> exists r', oset r i a = Ok r' /\ repv n r' (upd1 V i a).
Proof.
  intros (L & H) Hi. unfold oset. destruct (Nat.ltb_spec i (length r)); [|lia].
  eexists. split; [reflexivity|]. split; [rewrite upd_length; exact L|].
  intros i' Hi'. rewrite nth_error_upd. unfold upd1.
  destruct (Nat.ltb_spec i (length r)); [|lia].
  destruct (Nat.eqb_spec i' i); cbn [andb]; auto.
Qed.
Lemma repv_repeat n (z : F) : repv n (repeat z n) (fun _ => z).
Proof. split; [apply repeat_length|]. intros i Hi. apply nth_error_repeat. exact Hi. Qed.
Lemma rep_repeat n m (z : F) : rep n m (repeat z (n * m)) (fun _ _ => z).
Proof. split; [apply repeat_length|]. intros i j Hi Hj. apply nth_error_repeat. apply pos_lt; assumption. Qed.

(* a list of the right length holds some matrix *)
Lemma rep_total (z : F) n m d : length d = n * m -> rep n m d (fun i j => nth (i * m + j) d z).
Proof.
  intros L. split; [exact L|]. intros i j Hi Hj. apply nth_error_nth'. rewrite L. apply pos_lt; assumption.
Qed.
Lemma repv_total (z : F) n r : length r = n -> repv n r (fun i => nth i r z).
Proof. intros L. split; [exact L|]. intros i Hi. apply nth_error_nth'. lia. Qed.
Lemma repv_list n r V : repv n r V -> r = map V (seq 0 n).
Proof.
  intros (L & H). apply list_eq_nth_error. intros k.
  destruct (Nat.lt_ge_cases k n) as [Hk|Hk].
  - rewrite H by assumption. rewrite nth_error_map, nth_error_seq.
    destruct (Nat.ltb_spec k n); [reflexivity|lia].
  - rewrite (proj2 (nth_error_None r k)) by lia. symmetry. apply nth_error_None.
    rewrite map_length, seq_length. exact Hk.
Qed.

End M.

Section Step.
Context {F : Type}.
Implicit Types (d : list F) (M : nat -> nat -> F).
Context (zero : F) (fsub fmul fdiv : F -> F -> F).
Context (fabs : F -> F) (flt : F -> F -> bool) (feqb : F -> F -> bool).

(* ---- the parts of an LU step ---- *)
Definition swapM (p k : nat) M := fun i j => if i =? p then M k j else if i =? k then M p j else M i j.
Definition scaleM (k : nat) M := fun i j => if (i =? k) && (k <? j) then fdiv (M k j) (M k k) else M i j.
Definition restM (k : nat) M :=
  fun i j => if (k <? i) && (k <? j) then fsub (M i j) (fmul (M i k) (M k j)) else M i j.

Lemma swap_rows_ok n d M p k : rep n n d M -> p < n -> k < n -> p <> k ->
  exists d', swap_rows n d p k = Ok d' /\ rep n n d' (swapM p k M).
Proof.
  intros R Hp Hk Hpk. unfold swap_rows.
  destruct (ofold_seq_inv
    (fun j0 d => rep n n d (fun i j => if j <? j0 then swapM p k M i j else M i j))
    (fun d j => x <- at2 n d p j ;; y <- at2 n d k j ;; d <- pset n d p j y ;; pset n d k j x)
    n 0 d) as (d' & E & R').
  - eapply rep_ext; [exact R|]. intros i j _ _. cbv beta. destruct (Nat.ltb_spec j 0); [lia|reflexivity].
  - intros j0 d0 Hj R0.
    rewrite (rep_get n n d0 _ p j0 R0) by lia. cbn [obind].
    rewrite (rep_get n n d0 _ k j0 R0) by lia. cbn [obind].
    destruct (rep_set n n d0 _ p j0 (if j0 <? j0 then swapM p k M k j0 else M k j0) R0) as (d1 & E1 & R1); [lia..|].
    rewrite E1. cbn [obind].
    destruct (rep_set n n d1 _ k j0 (if j0 <? j0 then swapM p k M p j0 else M p j0) R1) as (d2 & E2 & R2); [lia..|].
    exists d2. split; [exact E2|]. eapply rep_ext; [exact R2|]. intros i j Hi Hj'. cbv beta.
    unfold upd2, swapM. rewrite Nat.ltb_irrefl.
    destruct (Nat.eqb_spec i k), (Nat.eqb_spec i p), (Nat.eqb_spec j j0), (Nat.ltb_spec j j0),
      (Nat.ltb_spec j (j0 + 1)); cbn [andb]; subst; try lia; try reflexivity.
  - exists d'. split; [exact E|]. eapply rep_ext; [exact R'|]. intros i j Hi Hj. cbv beta. cbn [Nat.add].
    destruct (Nat.ltb_spec j n); [reflexivity|lia].
Qed.

Lemma scale_row_ok n d M k : rep n n d M -> k < n ->
  exists d', scale_row fdiv n d k = Ok d' /\ rep n n d' (scaleM k M).
Proof.
  intros R Hk. unfold scale_row.
  destruct (ofold_seq_inv
    (fun j0 d => rep n n d (fun i j => if (i =? k) && (k <? j) && (j <? j0) then fdiv (M k j) (M k k) else M i j))
    (fun d j => x <- at2 n d k j ;; y <- at2 n d k k ;; pset n d k j (fdiv x y))
    (n - (k + 1)) (k + 1) d) as (d' & E & R').
  - eapply rep_ext; [exact R|]. intros i j _ _. cbv beta.
    destruct (Nat.eqb_spec i k), (Nat.ltb_spec k j), (Nat.ltb_spec j (k + 1)); cbn [andb]; try reflexivity; lia.
  - intros j0 d0 Hj R0.
    rewrite (rep_get n n d0 _ k j0 R0) by lia. cbn [obind].
    rewrite (rep_get n n d0 _ k k R0) by lia. cbn [obind].
    rewrite !Nat.ltb_irrefl, !andb_false_r.
    destruct (rep_set n n d0 _ k j0 (fdiv (M k j0) (M k k)) R0) as (d1 & E1 & R1); [lia..|].
    exists d1. split.
    + rewrite <- E1. reflexivity.
    + eapply rep_ext; [exact R1|]. intros i j Hi Hj'. cbv beta. unfold upd2.
      destruct (Nat.eqb_spec i k), (Nat.eqb_spec j j0), (Nat.ltb_spec k j), (Nat.ltb_spec j j0),
        (Nat.ltb_spec j (j0 + 1)); cbn [andb]; subst; try lia; reflexivity.
  - exists d'. split; [exact E|]. eapply rep_ext; [exact R'|]. intros i j Hi Hj. cbv beta. unfold scaleM.
    destruct (Nat.ltb_spec j (k + 1 + (n - (k + 1)))); [rewrite andb_true_r; reflexivity|lia].
Qed.

Lemma update_rest_ok n d M k : rep n n d M -> k < n ->
  exists d', update_rest fsub fmul n d k = Ok d' /\ rep n n d' (restM k M).
Proof.
  intros R Hk. unfold update_rest. rewrite ofold_list_prod.
  set (v := fun i j => fsub (M i j) (fmul (M i k) (M k j))).
  destruct (ofold_seq_inv
    (fun i0 d => rep n n d (fun i j => if (k <? i) && (k <? j) && (i <? i0) then v i j else M i j))
    (fun d i => ofold (fun d j => x <- at2 n d i j ;; y <- at2 n d i k ;; z <- at2 n d k j ;;
                                  pset n d i j (fsub x (fmul y z))) (seq (k + 1) (n - (k + 1))) d)
    (n - (k + 1)) (k + 1) d) as (d' & E & R').
  - eapply rep_ext; [exact R|]. intros i j _ _. cbv beta.
    destruct (Nat.ltb_spec k i), (Nat.ltb_spec k j), (Nat.ltb_spec i (k + 1)); cbn [andb]; try reflexivity; lia.
  - intros i0 d0 Hi0 R0.
    destruct (ofold_seq_inv
      (fun j0 d => rep n n d (fun i j => if (k <? i) && (k <? j) && ((i <? i0) || ((i =? i0) && (j <? j0))) then v i j else M i j))
      (fun d j => x <- at2 n d i0 j ;; y <- at2 n d i0 k ;; z <- at2 n d k j ;;
                  pset n d i0 j (fsub x (fmul y z)))
      (n - (k + 1)) (k + 1) d0) as (d1 & E1 & R1).
    + eapply rep_ext; [exact R0|]. intros i j _ _. cbv beta.
      destruct (Nat.ltb_spec k i), (Nat.ltb_spec k j), (Nat.ltb_spec i i0), (Nat.eqb_spec i i0),
        (Nat.ltb_spec j (k + 1)); cbn [andb orb]; try reflexivity; lia.
    + intros j0 d1 Hj0 R1.
      rewrite (rep_get n n d1 _ i0 j0 R1) by lia. cbn [obind].
      rewrite (rep_get n n d1 _ i0 k R1) by lia. cbn [obind].
      rewrite (rep_get n n d1 _ k j0 R1) by lia. cbn [obind].
      rewrite !Nat.ltb_irrefl, !andb_false_r. cbn [andb orb].
      destruct (rep_set n n d1 _ i0 j0 (v i0 j0) R1) as (d2 & E2 & R2); [lia..|].
      exists d2. split; [exact E2|]. eapply rep_ext; [exact R2|]. intros i j Hi Hj. cbv beta. unfold upd2.
      destruct (Nat.eqb_spec i i0), (Nat.eqb_spec j j0), (Nat.ltb_spec k i), (Nat.ltb_spec k j),
        (Nat.ltb_spec i i0), (Nat.ltb_spec j j0), (Nat.ltb_spec j (j0 + 1)); cbn [andb orb]; subst; try lia; reflexivity.
    + exists d1. split; [exact E1|]. eapply rep_ext; [exact R1|]. intros i j Hi Hj. cbv beta.
      destruct (Nat.ltb_spec k i), (Nat.ltb_spec k j), (Nat.ltb_spec i i0), (Nat.eqb_spec i i0),
        (Nat.ltb_spec i (i0 + 1)), (Nat.ltb_spec j (k + 1 + (n - (k + 1)))); cbn [andb orb]; try lia; reflexivity.
  - exists d'. split; [exact E|]. eapply rep_ext; [exact R'|]. intros i j Hi Hj. cbv beta. unfold restM, v.
    destruct (Nat.ltb_spec i (k + 1 + (n - (k + 1)))); [rewrite andb_true_r; reflexivity|lia].
Qed.

(* the largest element of the column is chosen, when < is a strict order on absolute values *)
Lemma find_pivot_ok n d M k : rep n n d M -> k < n ->
  exists a p, find_pivot fabs flt n d k k = Ok (a, p) /\ k <= p < n /\ a = fabs (M p k) /\
    ((forall a, flt a a = false) ->
     (forall a b c, flt a b = true -> flt a c = false -> flt b c = false) ->
     forall j, k <= j < n -> flt (fabs (M p k)) (fabs (M j k)) = false).
Proof.
  intros R Hk. unfold find_pivot. rewrite (rep_get n n d M k k R) by lia. cbn [obind].
  destruct (ofold_seq_inv
    (fun j0 '(a, p) => k <= p < n /\ a = fabs (M p k) /\
       ((forall a, flt a a = false) ->
        (forall a b c, flt a b = true -> flt a c = false -> flt b c = false) ->
        forall j, k <= j < j0 -> flt (fabs (M p k)) (fabs (M j k)) = false))
    (fun '(akk, p) j => x <- at2 n d j k ;; Ok (if flt akk (fabs x) then (fabs x, j) else (akk, p)))
    (n - (k + 1)) (k + 1) (fabs (M k k), k)) as ((a & p) & E & H1 & H2 & H3).
  - split; [lia|]. split; [reflexivity|]. intros Hir _ j Hj. replace j with k by lia. apply Hir.
  - intros j0 (a & p) Hj (H1 & H2 & H3). rewrite (rep_get n n d M j0 k R) by lia. cbn [obind].
    eexists. split; [reflexivity|]. subst a.
    destruct (flt (fabs (M p k)) (fabs (M j0 k))) eqn:Hlt.
    + split; [lia|]. split; [reflexivity|]. intros Hir Htr j Hj'.
      destruct (Nat.eq_dec j j0) as [->|Hne]; [apply Hir|].
      apply (Htr (fabs (M p k))); [exact Hlt|]. apply H3; auto. lia.
    + split; [lia|]. split; [reflexivity|]. intros Hir Htr j Hj'.
      destruct (Nat.eq_dec j j0) as [->|Hne]; [exact Hlt|]. apply H3; auto. lia.
  - exists a, p. split; [exact E|]. split; [exact H1|]. split; [exact H2|].
    intros Hir Htr j Hj. apply H3; auto. lia.
Qed.

(* one step of the decomposition *)
Definition next_matrix (p k : nat) M := restM k (scaleM k (if p =? k then M else swapM p k M)).

Lemma lu_step_ok np n d ipiv bad ns M k : rep n n d M -> k < n -> nth_error ipiv k = Some k ->
  exists d' p, lu_step zero fsub fmul fdiv fabs flt feqb np n (d, ipiv, bad, ns) k
      = Ok (d', upd ipiv k p, (if feqb (M p k) zero then true else bad), ns + (if p =? k then 0 else 1)) /\
    k <= p < n /\ (np = true -> p = k) /\ rep n n d' (next_matrix p k M) /\
    (np = false -> (forall a, flt a a = false) ->
     (forall a b c, flt a b = true -> flt a c = false -> flt b c = false) ->
     forall j, k <= j < n -> flt (fabs (M p k)) (fabs (M j k)) = false).
Proof.
  intros R Hk Hpiv. unfold lu_step.
  assert (Hl : k < length ipiv) by (apply nth_error_Some; congruence).
  assert (Hsame : upd ipiv k k = ipiv).
  { apply list_eq_nth_error. intros i. rewrite nth_error_upd.
    destruct (Nat.eqb_spec i k), (Nat.ltb_spec k (length ipiv)); cbn [andb]; subst; try reflexivity; auto. }
  assert (P : exists d1 p M1, (if np then Ok (d, ipiv, ns)
     else p0 <- oget ipiv k ;; '(_, p) <- find_pivot fabs flt n d k p0 ;; ipiv <- oset ipiv k p ;;
       if p =? k then Ok (d, ipiv, ns) else d <- swap_rows n d p k ;; Ok (d, ipiv, ns + 1))
     = Ok (d1, upd ipiv k p, ns + (if p =? k then 0 else 1)) /\ k <= p < n /\ (np = true -> p = k) /\
     M1 = (if p =? k then M else swapM p k M) /\ rep n n d1 M1 /\
    (np = false -> (forall a, flt a a = false) ->
     (forall a b c, flt a b = true -> flt a c = false -> flt b c = false) ->
     forall j, k <= j < n -> flt (fabs (M p k)) (fabs (M j k)) = false)).
  { destruct np.
    - exists d, k, M. rewrite Nat.eqb_refl, Hsame. split; [repeat f_equal; lia|]. split; [lia|].
      split; [reflexivity|]. split; [reflexivity|]. split; [exact R|]. discriminate.
    - unfold oget at 1. rewrite Hpiv. cbn [obind].
      destruct (find_pivot_ok n d M k R Hk) as (a & p & E & H1 & H2 & H3). rewrite E. cbn [obind].
      unfold oset. destruct (Nat.ltb_spec k (length ipiv)); [|lia]. cbn [obind].
      destruct (Nat.eqb_spec p k) as [->|Hpk].
      + exists d, k, M. rewrite Nat.eqb_refl. split; [repeat f_equal; lia|]. split; [lia|].
        split; [reflexivity|]. split; [reflexivity|]. split; [exact R|]. intros _; exact H3.
      + destruct (swap_rows_ok n d M p k R) as (d1 & E1 & R1); [lia..|]. rewrite E1. cbn [obind].
        exists d1, p, (swapM p k M). destruct (Nat.eqb_spec p k); [lia|].
        split; [reflexivity|]. split; [lia|]. split; [discriminate|]. split; [reflexivity|].
        split; [exact R1|]. intros _; exact H3. }
  destruct P as (d1 & p & M1 & E & Hp & Hnp & HM & R1 & Hmax). rewrite E. cbn [obind].
  rewrite (rep_get n n d1 M1 k k R1) by lia. cbn [obind].
  destruct (scale_row_ok n d1 M1 k R1 Hk) as (d2 & E2 & R2). rewrite E2. cbn [obind].
  destruct (update_rest_ok n d2 _ k R2 Hk) as (d3 & E3 & R3). rewrite E3. cbn [obind].
  exists d3, p. split.
  - assert (M1 k k = M p k) as ->; [|reflexivity]. subst M1.
    destruct (Nat.eqb_spec p k) as [Heq|]; [rewrite Heq; reflexivity|]. unfold swapM. rewrite Nat.eqb_refl.
    destruct (Nat.eqb_spec k p); [lia|reflexivity].
  - split; [exact Hp|]. split; [exact Hnp|]. split; [|exact Hmax]. unfold next_matrix. rewrite <- HM. exact R3.
Qed.

End Step.

(* ---- triangular systems ---- *)
Section Tri.
Context {F : Type}.
Implicit Types (d : list F) (M : nat -> nat -> F).
Context (fsub fmul fdiv : F -> F -> F).
(* the sequence of subtractions made on r[k] *)
Definition subs (a : F) (f : nat -> F) (is_ : list nat) : F := fold_left (fun a i => fsub a (f i)) is_ a.

Lemma subs_ext (f g : nat -> F) : forall l a, (forall i, In i l -> f i = g i) -> subs a f l = subs a g l.
Proof.
  induction l as [|i l IH]; intros a H; [reflexivity|]. unfold subs in *. cbn [fold_left].
  rewrite H by (left; reflexivity). apply IH. intros j Hj. apply H. right; exact Hj.
Qed.
Lemma upd1_same (V : nat -> F) k a : upd1 V k a k = a.
Proof. unfold upd1. rewrite Nat.eqb_refl. reflexivity. Qed.
Lemma upd1_other (V : nat -> F) k a i : i <> k -> upd1 V k a i = V i.
Proof. intros H. unfold upd1. destruct (Nat.eqb_spec i k); [contradiction|reflexivity]. Qed.

Lemma sub_row_ok n d M k : rep n n d M -> k < n -> forall l r V, repv n r V ->
  (forall i, In i l -> i < n /\ i <> k) ->
  exists r', sub_row fsub fmul n d r k l = Ok r' /\
    repv n r' (upd1 V k (subs (V k) (fun i => fmul (V i) (M k i)) l)).
Proof.
  intros R Hk. induction l as [|i l IH]; intros r V Hr Hl.
  - exists r. split; [reflexivity|]. eapply repv_ext; [exact Hr|]. intros i Hi. unfold upd1, subs. cbn [fold_left].
    destruct (Nat.eqb_spec i k); congruence.
  - destruct (Hl i (or_introl eq_refl)) as (Hi & Hik).
    unfold sub_row. cbn [ofold]. rewrite (repv_get n r V k Hr Hk). cbn [obind].
    rewrite (repv_get n r V i Hr Hi). cbn [obind]. rewrite (rep_get n n d M k i R Hk Hi). cbn [obind].
    destruct (repv_set n r V k (fsub (V k) (fmul (V i) (M k i))) Hr Hk) as (r1 & E1 & R1).
    rewrite E1. cbn [obind].
    destruct (IH r1 _ R1) as (r2 & E2 & R2); [intros; apply Hl; right; assumption|].
    exists r2. split; [exact E2|]. eapply repv_ext; [exact R2|]. intros j Hj.
    destruct (Nat.eq_dec j k) as [->|Hjk].
    + rewrite !upd1_same. unfold subs at 2. cbn [fold_left]. apply subs_ext. intros i0 Hi0.
      rewrite upd1_other by (apply (Hl i0); right; exact Hi0). reflexivity.
    + rewrite !upd1_other by exact Hjk. reflexivity.
Qed.

Definition row_solved M (Y : nat -> F) (x : F) (k : nat) : F :=
  fdiv (subs x (fun i => fmul (Y i) (M k i)) (seq 0 k)) (M k k).

Lemma forward_step_ok n d r M V k : rep n n d M -> k < n -> repv n r V ->
  exists r', forward_step fsub fmul fdiv n d r k = Ok r' /\ repv n r' (upd1 V k (row_solved M V (V k) k)).
Proof.
  intros R Hk Hr. unfold forward_step.
  destruct (sub_row_ok n d M k R Hk (seq 0 k) r V Hr) as (r1 & E1 & R1).
  { intros i Hi. apply in_seq in Hi. lia. }
  rewrite E1. cbn [obind]. rewrite (repv_get n r1 _ k R1 Hk). cbn [obind].
  rewrite (rep_get n n d M k k R Hk Hk). cbn [obind].
  destruct (repv_set n r1 _ k (fdiv (upd1 V k (subs (V k) (fun i => fmul (V i) (M k i)) (seq 0 k)) k) (M k k)) R1 Hk)
    as (r2 & E2 & R2).
  exists r2. split; [exact E2|]. eapply repv_ext; [exact R2|]. intros j Hj.
  destruct (Nat.eq_dec j k) as [->|Hjk].
  - rewrite !upd1_same. reflexivity.
  - rewrite !upd1_other by exact Hjk. reflexivity.
Qed.

(* what the backward loop of solve and invert computes: Z k = Y k - sum *)
Definition back_solved (n : nat) M (Y Z : nat -> F) : Prop :=
  forall k, k < n -> Z k = subs (Y k) (fun i => fmul (Z i) (M k i)) (seq (k + 1) (n - (k + 1))).
Definition fwd_solved (n : nat) M (X Y : nat -> F) : Prop :=
  forall k, k < n -> Y k = row_solved M Y (X k) k.

Lemma row_solved_ext M Y Y' x k : (forall i, i < k -> Y i = Y' i) -> row_solved M Y x k = row_solved M Y' x k.
Proof.
  intros H. unfold row_solved. f_equal. apply subs_ext. intros i Hi. apply in_seq in Hi. rewrite H by lia. reflexivity.
Qed.

(* invariant of the backward loops *)
Definition back_inv (n : nat) M (Y : nat -> F) (k0 : nat) (Z : nat -> F) : Prop :=
  (forall i, i < k0 -> i < n -> Z i = Y i) /\
  (forall k, k0 <= k < n -> Z k = subs (Y k) (fun i => fmul (Z i) (M k i)) (seq (k + 1) (n - (k + 1)))).
Lemma back_inv_step n M Y k Z : k < n -> back_inv n M Y (k + 1) Z ->
  back_inv n M Y k (upd1 Z k (subs (Z k) (fun i => fmul (Z i) (M k i)) (seq (k + 1) (n - (k + 1))))).
Proof.
  intros Hk (H1 & H2). split.
  - intros i Hi Hn. rewrite upd1_other by lia. apply H1; lia.
  - intros i Hi. destruct (Nat.eq_dec i k) as [->|Hne].
    + rewrite upd1_same. rewrite (H1 k) by lia. apply subs_ext. intros j Hj. apply in_seq in Hj.
      rewrite upd1_other by lia. reflexivity.
    + rewrite upd1_other by lia. rewrite H2 by lia. apply subs_ext. intros j Hj. apply in_seq in Hj.
      rewrite upd1_other by lia. reflexivity.
Qed.

End Tri.

Section Solve.
Context {F : Type}.
Implicit Types (d : list F) (M : nat -> nat -> F).
Context (zero one : F) (fsub fmul fdiv : F -> F -> F).
Local Notation row_solved := (row_solved fsub fmul fdiv).
Local Notation fwd_solved := (fwd_solved fsub fmul fdiv).
Local Notation back_solved := (back_solved fsub fmul).
Local Notation back_inv := (back_inv fsub fmul).

(* the right-hand side after the exchanges of the first k steps *)
Definition swap1 (k p : nat) (i : nat) : nat := if i =? k then p else if i =? p then k else i.
Fixpoint perm_fn (piv : nat -> nat) (k : nat) (i : nat) : nat :=
  match k with 0 => i | S k => perm_fn piv k (swap1 k (piv k) i) end.

(* p holds the pivots of a decomposition *)
Definition pivots (n : nat) (p : list nat) (piv : nat -> nat) : Prop :=
  length p = n /\ (forall k, k < n -> nth_error p k = Some (piv k) /\ k <= piv k < n).

Lemma perm_fn_stable n piv p : pivots n p piv -> forall k l, k < l -> l <= n ->
  perm_fn piv l k = perm_fn piv (k + 1) k.
Proof.
  intros (_ & H) k l Hkl. induction l as [|l IH]; [lia|]. intros Hl.
  destruct (Nat.eq_dec k l) as [->|Hne]; [replace (l + 1) with (S l) by lia; reflexivity|].
  cbn [perm_fn]. destruct (H l) as (_ & B); [lia|]. unfold swap1.
  destruct (Nat.eqb_spec k l); [lia|]. destruct (Nat.eqb_spec k (piv l)); [lia|]. apply IH; lia.
Qed.

Lemma lu_solve_ok np n u M p piv x X : rep n n (pix (u_mat u)) M -> nr (u_mat u) = n -> nc (u_mat u) = n ->
  u_piv u = p -> pivots n p piv -> (np = true -> forall k, k < n -> piv k = k) -> repv n x X ->
  exists r Y Z, lu_solve zero fsub fmul fdiv np u x = Ok r /\ repv n r Z /\
    fwd_solved n M (fun k => X (perm_fn piv n k)) Y /\ back_solved n M Y Z.
Proof.
  intros R Hr Hc Hp Hpiv Hnp Hx. unfold lu_solve. destruct Hx as (Lx & Hx).
  rewrite Hr, Lx, Nat.eqb_refl, Hc, Hp. cbn [check obind].
  match goal with |- context [ofold ?f (seq 0 n) _] =>
    destruct (ofold_seq_inv
      (fun k '(x, r) => repv n x (fun i => X (perm_fn piv k i)) /\
         exists Y, repv n r Y /\ forall i, i < k -> Y i = row_solved M Y (X (perm_fn piv (i + 1) i)) i)
      f n 0 (x, repeat zero n)) as ((x' & r) & E & Hx' & Y & RY & HY) end.
  - split; [split; assumption|]. exists (fun _ => zero). split; [apply repv_repeat|]. intros i Hi. lia.
  - intros k (x0 & r0) Hk (Hx0 & Y & RY & HY).
    assert (Sx : exists x1, (if np then Ok x0 else
       pk <- oget p k ;; if pk =? k then Ok x0 else a <- oget x0 k ;; b <- oget x0 pk ;; x <- oset x0 k b ;; oset x pk a)
       = Ok x1 /\ repv n x1 (fun i => X (perm_fn piv (k + 1) i))).
    { destruct Hpiv as (Lp & Hpiv). destruct (Hpiv k) as (Ek & Bk); [lia|].
      assert (Hid : piv k = k -> repv n x0 (fun i => X (perm_fn piv (k + 1) i))).
      { intros Hpk. eapply repv_ext; [exact Hx0|]. intros i Hi. replace (k + 1) with (S k) by lia.
        cbn [perm_fn]. unfold swap1. rewrite Hpk. destruct (Nat.eqb_spec i k); subst; reflexivity. }
      destruct np.
      - exists x0. split; [reflexivity|]. apply Hid. apply Hnp; [reflexivity|lia].
      - unfold oget at 1. rewrite Ek. cbn [obind]. destruct (Nat.eqb_spec (piv k) k) as [Hpk|Hpk].
        + exists x0. split; [reflexivity|]. auto.
        + rewrite (repv_get n x0 _ k Hx0) by lia. cbn [obind].
          rewrite (repv_get n x0 _ (piv k) Hx0) by lia. cbn [obind].
          destruct (repv_set n x0 _ k (X (perm_fn piv k (piv k))) Hx0) as (x1 & E1 & R1); [lia|].
          rewrite E1. cbn [obind].
          destruct (repv_set n x1 _ (piv k) (X (perm_fn piv k k)) R1) as (x2 & E2 & R2); [lia|].
          exists x2. split; [exact E2|]. eapply repv_ext; [exact R2|]. intros i Hi.
          replace (k + 1) with (S k) by lia. cbn [perm_fn]. unfold upd1, swap1.
          destruct (Nat.eqb_spec i (piv k)), (Nat.eqb_spec i k); subst; try reflexivity. lia. }
    destruct Sx as (x1 & E1 & R1). rewrite E1. cbn [obind].
    rewrite (repv_get n x1 _ k R1) by lia. cbn [obind].
    destruct (repv_set n r0 Y k (X (perm_fn piv (k + 1) k)) RY) as (r1 & E2 & R2); [lia|].
    rewrite E2. cbn [obind].
    destruct (forward_step_ok fsub fmul fdiv n (pix (u_mat u)) r1 M _ k R ltac:(lia) R2) as (r2 & E3 & R3). rewrite E3. cbn [obind].
    eexists. split; [reflexivity|]. split; [exact R1|]. eexists. split; [exact R3|].
    intros i Hi. destruct (Nat.eq_dec i k) as [->|Hne].
    + rewrite !upd1_same. apply row_solved_ext. intros j Hj. rewrite !upd1_other by lia. reflexivity.
    + rewrite !upd1_other by lia. rewrite HY by lia. apply row_solved_ext.
      intros j Hj. rewrite !upd1_other by lia. reflexivity.
  - rewrite E. cbn [obind].
    match goal with |- context [ofold ?f (rev (seq 0 n)) _] =>
      destruct (ofold_rev_inv (fun k r => exists Z, repv n r Z /\ back_inv n M Y k Z) f n r) as (r' & E' & Z & RZ & HZ) end.
    + exists Y. split; [exact RY|]. split; [reflexivity|]. intros k Hk; lia.
    + intros k r0 Hk (Z & RZ & HZ).
      destruct (sub_row_ok fsub fmul n _ M k R Hk (seq (k + 1) (n - (k + 1))) r0 Z RZ) as (r1 & E1 & R1).
      { intros i Hi. apply in_seq in Hi. lia. }
      exists r1. split; [exact E1|]. eexists. split; [exact R1|]. apply back_inv_step; assumption.
    + exists r', Y, Z. split; [exact E'|]. split; [exact RZ|]. split.
      * intros k Hk. rewrite HY by lia.
        assert (Est : perm_fn piv n k = perm_fn piv (k + 1) k) by (eapply perm_fn_stable; [exact Hpiv|lia..]).
        rewrite Est. reflexivity.
      * intros k Hk. apply HZ. lia.
Qed.

(* ---- invert ---- *)
(* the position of the 1 of the unit vector after the first k exchanges *)
Fixpoint pos_of (piv : nat -> nat) (c k : nat) : nat :=
  match k with 0 => c | S k => swap1 k (piv k) (pos_of piv c k) end.
Lemma swap1_inv k p i : swap1 k p (swap1 k p i) = i.
Proof.
  unfold swap1. destruct (Nat.eqb_spec i k) as [->|H1].
  - destruct (Nat.eqb_spec p k) as [->|]; [reflexivity|]. rewrite Nat.eqb_refl. reflexivity.
  - destruct (Nat.eqb_spec i p) as [->|H2]; [rewrite Nat.eqb_refl; reflexivity|].
    destruct (Nat.eqb_spec i k), (Nat.eqb_spec i p); congruence.
Qed.
Lemma pos_of_perm piv c : forall k i, perm_fn piv k i = c <-> i = pos_of piv c k.
Proof.
  induction k as [|k IH]; intros i; [reflexivity|]. cbn [perm_fn pos_of]. rewrite IH. split; intros H.
  - rewrite <- H. symmetry. apply swap1_inv.
  - rewrite H. apply swap1_inv.
Qed.

(* the vector of right-hand sides used by invert for column c *)
Definition unit_rhs (np : bool) (piv : nat -> nat) (n c : nat) : nat -> F :=
  fun k => if np then one else if perm_fn piv n k =? c then one else zero.

Lemma lu_invert_ok np n u M p piv : fits n n -> rep n n (pix (u_mat u)) M -> nr (u_mat u) = n -> nc (u_mat u) = n ->
  u_piv u = p -> pivots n p piv ->
  exists inv V, lu_invert zero one fsub fmul fdiv np u = Ok (Img n n inv) /\ rep n n inv V /\
    forall c, c < n -> exists Y, fwd_solved n M (unit_rhs np piv n c) Y /\ back_solved n M Y (fun k => V k c).
Proof.
  intros Hf R Hr Hc Hp Hpiv. unfold lu_invert. rewrite Hr, Hc, Hp. rewrite filled_ok by exact Hf. cbn [obind pix].
  match goal with |- context [ofold ?f (seq 0 n) (repeat zero (n * n), _)] =>
    destruct (ofold_seq_inv
      (fun c0 '(inv, r) => (exists Y, repv n r Y) /\ exists V, rep n n inv V /\
         forall c, c < c0 -> exists Y, fwd_solved n M (unit_rhs np piv n c) Y /\ back_solved n M Y (fun k => V k c))
      f n 0 (repeat zero (n * n), repeat zero n)) as ((inv & r) & E & _ & V & RV & HV) end.
  - split; [exists (fun _ => zero); apply repv_repeat|]. exists (fun _ _ => zero). split; [apply rep_repeat|].
    intros c Hc0. lia.
  - intros c (inv & r) Hcn ((Y0 & RY0) & V & RV & HV).
    match goal with |- context [ofold ?f (seq 0 n) (r, c)] =>
      destruct (ofold_seq_inv
        (fun k '(r, i1) => (np = false -> i1 = pos_of piv c k) /\ exists Y, repv n r Y /\
           forall i, i < k -> Y i = row_solved M Y (unit_rhs np piv n c i) i)
        f n 0 (r, c)) as ((r1 & i1) & E & _ & Y & RY & HY) end.
    + split; [reflexivity|]. exists Y0. split; [exact RY0|]. intros i Hi; lia.
    + intros k (r0 & i1) Hk (Hi1 & Y & RY & HY).
      assert (Sr : exists r1 i2, (if np then r <- oset r0 k one ;; Ok (r, i1)
         else pk <- oget p k ;; let i2 := if k =? i1 then pk else if pk =? i1 then k else i1 in
              r <- oset r0 k (if i2 =? k then one else zero) ;; Ok (r, i2)) = Ok (r1, i2) /\
         (np = false -> i2 = pos_of piv c (k + 1)) /\ repv n r1 (upd1 Y k (unit_rhs np piv n c k))).
      { unfold unit_rhs. destruct np.
        - destruct (repv_set n r0 Y k one RY) as (r1 & E1 & R1); [lia|]. rewrite E1. cbn [obind].
          exists r1, i1. split; [reflexivity|]. split; [discriminate|]. exact R1.
        - pose proof Hpiv as (Lp & Hpv). destruct (Hpv k) as (Ek & Bk); [lia|].
          unfold oget at 1. rewrite Ek. cbn [obind]. cbv zeta.
          assert (E2 : (if k =? i1 then piv k else if piv k =? i1 then k else i1) = pos_of piv c (k + 1)).
          { replace (k + 1) with (S k) by lia. cbn [pos_of]. rewrite <- Hi1 by reflexivity. unfold swap1.
            rewrite (Nat.eqb_sym i1 k), (Nat.eqb_sym i1 (piv k)). reflexivity. }
          rewrite E2.
          destruct (repv_set n r0 Y k (if pos_of piv c (k + 1) =? k then one else zero) RY) as (r1 & E1 & R1); [lia|].
          rewrite E1. cbn [obind]. eexists _, _. split; [reflexivity|]. split; [reflexivity|].
          assert (E3 : (pos_of piv c (k + 1) =? k) = (perm_fn piv n k =? c)).
          { rewrite (perm_fn_stable n piv p Hpiv k n) by lia.
            destruct (Nat.eqb_spec (pos_of piv c (k + 1)) k) as [Heq|Hne], (Nat.eqb_spec (perm_fn piv (k + 1) k) c) as [Heq'|Hne'];
              try reflexivity; exfalso.
            - apply Hne'. apply pos_of_perm. symmetry; exact Heq.
            - apply Hne. symmetry. apply pos_of_perm. exact Heq'. }
          rewrite E3 in R1. exact R1. }
      destruct Sr as (r1 & i2 & E1 & Hi2 & R1).
      cbv zeta in E1.
      rewrite E1. cbn [obind].
      destruct (forward_step_ok fsub fmul fdiv n (pix (u_mat u)) r1 M _ k R ltac:(lia) R1) as (r2 & E3 & R3). rewrite E3. cbn [obind].
      eexists. split; [reflexivity|]. split; [exact Hi2|]. eexists. split; [exact R3|].
      intros i Hi. destruct (Nat.eq_dec i k) as [->|Hne].
      * rewrite !upd1_same. apply row_solved_ext. intros j Hj. rewrite !upd1_other by lia. reflexivity.
      * rewrite !upd1_other by lia. rewrite HY by lia. apply row_solved_ext.
        intros j Hj. rewrite !upd1_other by lia. reflexivity.
    + rewrite E. cbn [obind].
      match goal with |- context [ofold ?f (rev (seq 0 n)) _] =>
        destruct (ofold_rev_inv (fun k '(inv, r) => exists Z, repv n r Z /\ back_inv n M Y k Z /\
            rep n n inv (fun i j => if (j =? c) && (k <=? i) then Z i else V i j)) f n (inv, r1))
          as ((inv' & r') & E' & Z & RZ & HZ & RV') end.
      * exists Y. split; [exact RY|]. split; [split; [reflexivity|]; intros k Hk; lia|].
        eapply rep_ext; [exact RV|]. intros i j Hi Hj. cbv beta. destruct (Nat.leb_spec n i); [lia|]. rewrite andb_false_r. reflexivity.
      * intros k (inv0 & r0) Hk (Z & RZ & HZ & RI).
        destruct (sub_row_ok fsub fmul n _ M k R Hk (seq (k + 1) (n - (k + 1))) r0 Z RZ) as (r2 & E1 & R2).
        { intros i Hi. apply in_seq in Hi. lia. }
        rewrite E1. cbn [obind]. rewrite (repv_get n r2 _ k R2 Hk). cbn [obind].
        match goal with |- context [pset n inv0 k c ?a] => destruct (rep_set n n inv0 _ k c a RI Hk) as (inv1 & E2 & RI1); [lia|] end.
        rewrite E2. cbn [obind]. eexists. split; [reflexivity|].
        eexists. split; [exact R2|]. split; [apply back_inv_step; assumption|].
        eapply rep_ext; [exact RI1|]. intros i j Hi Hj. cbv beta. unfold upd2.
        destruct (Nat.eqb_spec i k), (Nat.eqb_spec j c), (Nat.leb_spec (k + 1) i), (Nat.leb_spec k i);
          cbn [andb]; subst; rewrite ?upd1_same, ?upd1_other by lia; try lia; reflexivity.
      * exists (inv', r'). split; [exact E'|]. split; [exists Z; exact RZ|].
        eexists. split; [exact RV'|]. intros c' Hc'. destruct (Nat.eq_dec c' c) as [->|Hne].
        -- exists Y. split.
           ++ intros k Hk. apply HY. lia.
           ++ intros k Hk. rewrite Nat.eqb_refl. cbn [andb Nat.leb].
              destruct HZ as (_ & HZ). rewrite (HZ k) by lia. apply subs_ext. intros i _. reflexivity.
        -- destruct (HV c') as (Y' & H1 & H2); [lia|]. exists Y'. split; [exact H1|].
           intros k Hk. destruct (Nat.eqb_spec c' c); [lia|]. cbn [andb]. rewrite (H2 k Hk). reflexivity.
  - exists inv, V. rewrite E. cbn [obind]. split; [reflexivity|]. split; [exact RV|]. intros c Hc0. apply HV. lia.
Qed.

Lemma lu_determinant_ok fopp n u M : rep n n (pix (u_mat u)) M -> nr (u_mat u) = n -> nc (u_mat u) = n ->
  lu_determinant one fopp fmul u =
    Ok (fold_left (fun a i => fmul a (M i i)) (seq 0 n) (if Nat.modulo (u_ns u) 2 =? 0 then one else fopp one)).
Proof.
  intros R Hr Hc. unfold lu_determinant. rewrite Hr.
  assert (G : forall l a, (forall i, In i l -> i < n) ->
    ofold (fun a i => x <- pget (u_mat u) i i ;; Ok (fmul a x)) l a = Ok (fold_left (fun a i => fmul a (M i i)) l a)).
  { induction l as [|i l IH]; intros a Hl; [reflexivity|]. cbn [ofold fold_left]. unfold pget at 1. rewrite Hc.
    change (oget (pix (u_mat u)) (i * n + i)) with (at2 n (pix (u_mat u)) i i).
    rewrite (rep_get n n _ M i i R) by (apply Hl; left; reflexivity). cbn [obind].
    apply IH. intros j Hj. apply Hl. right; exact Hj. }
  apply G. intros i Hi. apply in_seq in Hi. lia.
Qed.
End Solve.
