(* C108: proofs about the angular correlation. *)
From Coq Require Import QArith Lia Lqa.
From Verif Require Import Base HistModel HistSpec HistProofs AngModel AngSpec.
Local Open Scope nat_scope.

Lemma within_inside t b : within (fst b) (snd b) t = true <-> inside t b.
Proof.
  unfold within, inside. destruct t as [q|].
  - rewrite Bool.andb_true_iff, Bool.negb_true_iff, Qle_bool_iff, <- Bool.not_true_iff_false, Qle_bool_iff. split.
    + intros [A B]. exists q. split; [reflexivity|]. split; [exact A|]. apply Qnot_le_lt. exact B.
    + intros (q' & E & A & B). injection E as <-. split; [exact A|]. apply Qlt_not_le. exact B.
  - split; [discriminate|]. intros (q & E & _). discriminate.
Qed.
Lemma list_nth_ext {A} : forall (a b : list A), (forall i, nth_error a i = nth_error b i) -> a = b.
Proof.
  induction a as [|x a IH]; intros [|y b] H; [reflexivity|specialize (H 0); discriminate|specialize (H 0); discriminate|].
  f_equal; [specialize (H 0); cbn in H; congruence|]. apply IH. intros i. exact (H (S i)).
Qed.
Lemma histogram_contiguous part data bins : partitions part -> contiguous bins ->
  histogram part 2 (fun t : option Q => t) data bins = Ok (map (fun b => length (filter (within (fst b) (snd b)) data)) bins).
Proof.
  intros P C. destruct (histogram_ok _ part (fun t => t) data bins P) as (r & E & L & H & _). rewrite E. f_equal. apply list_nth_ext. intros i. rewrite nth_error_map. destruct (nth_error bins i) as [b|] eqn:B; cbn [option_map].
  - destruct (nth_error r i) as [c|] eqn:R; [|apply nth_error_None in R; assert (i < length bins) by (apply nth_error_Some; congruence); lia]. f_equal.
    apply (H i c (within (fst b) (snd b)) R). intros t. rewrite within_inside. symmetry. apply (contiguous_first bins t i b C B).
  - apply nth_error_None. apply nth_error_None in B. lia.
Qed.
Lemma filter_map_length {A B} (f : B -> bool) (g : A -> B) l : length (filter f (map g l)) = length (filter (fun x => f (g x)) l).
Proof. induction l as [|x l IH]; [reflexivity|]. cbn. destruct (f (g x)); cbn; rewrite IH; reflexivity. Qed.

Lemma combine_map2 {A B D} (f : A -> B) (g : A -> D) l : combine (map f l) (map g l) = map (fun x => (f x, g x)) l.
Proof. induction l as [|x l IH]; [reflexivity|]. cbn. f_equal. exact IH. Qed.

Section Ang.
Context {C : Type}.
Variable part : nat -> (option Q -> bool) -> list (option Q) -> list (option Q) * list (option Q).
Variable angdist : C * C -> C * C -> option Q.
Hypothesis HP : partitions part.
Lemma vadd_ok (bins : list (Q * Q)) f g : vadd (map f bins) (map g bins) = Ok (map (fun b => f b + g b) bins).
Proof. unfold vadd. rewrite !map_length, Nat.eqb_refl. cbn [check obind]. f_equal. induction bins as [|b l IH]; [reflexivity|]. cbn. f_equal. exact IH. Qed.
Lemma pairs_cons lo hi x a b : pairs angdist lo hi (x :: a) b = length (filter (within lo hi) (map (fun q => angdist q x) b)) + pairs angdist lo hi a b.
Proof. unfold pairs. cbn [list_prod]. rewrite filter_app, app_length, !filter_map_length. reflexivity. Qed.
Lemma add_counts_ok bins cat f p : contiguous bins -> add_counts part angdist 2 bins cat (map f bins) p = Ok (map (fun b => f b + pairs angdist (fst b) (snd b) [p] cat) bins).
Proof.
  intros K. unfold add_counts. rewrite (histogram_contiguous part _ bins HP K). cbn [obind]. rewrite vadd_ok. f_equal. apply map_ext. intros b. rewrite pairs_cons. unfold pairs at 1. cbn. lia.
Qed.
Lemma pairs_nil lo hi b : pairs angdist lo hi [] b = 0. Proof. reflexivity. Qed.
Lemma pairs_one lo hi x a b : pairs angdist lo hi (x :: a) b = pairs angdist lo hi [x] b + pairs angdist lo hi a b.
Proof. rewrite !pairs_cons, pairs_nil. lia. Qed.
Lemma fold_rr bins cat : contiguous bins -> forall src f,
  ofold (fun rr p => add_counts part angdist 2 bins cat rr p) src (map f bins) = Ok (map (fun b => f b + pairs angdist (fst b) (snd b) src cat) bins).
Proof.
  intros K. induction src as [|p src IH]; intros f; cbn [ofold].
  - f_equal. apply map_ext. intros b. rewrite pairs_nil. lia.
  - rewrite add_counts_ok by exact K. cbn [obind]. rewrite IH. f_equal. apply map_ext. intros b. rewrite (pairs_one _ _ p src). lia.
Qed.
Lemma fold_dd bins a c : contiguous bins -> forall src f g,
  ofold (fun '(dd, dr) p => x <- add_counts part angdist 2 bins a dd p ;; y <- add_counts part angdist 2 bins c dr p ;; Ok (x, y)) src (map f bins, map g bins)
  = Ok (map (fun b => f b + pairs angdist (fst b) (snd b) src a) bins, map (fun b => g b + pairs angdist (fst b) (snd b) src c) bins).
Proof.
  intros K. induction src as [|p src IH]; intros f g; cbn [ofold].
  - do 2 f_equal; apply map_ext; intros b; rewrite pairs_nil; lia.
  - rewrite !add_counts_ok by exact K. cbn [obind]. rewrite IH. do 2 f_equal; apply map_ext; intros b; rewrite (pairs_one _ _ p src); lia.
Qed.
Lemma repeat_map {A B} (x : B) (l : list A) : repeat x (length l) = map (fun _ => x) l.
Proof. induction l; cbn; congruence. Qed.
Lemma angcorrel_ok dims rdims ra dec rra rdec bins : contiguous bins -> length ra = length dec -> length rra = length rdec ->
  angcorrel part angdist dims dims rdims rdims ra dec rra rdec 2 bins = Ok (map (fun b =>
    let s := combine ra dec in let r := combine rra rdec in
    estimate (length ra) (length rra) (pairs angdist (fst b) (snd b) s s) (pairs angdist (fst b) (snd b) s r) (pairs angdist (fst b) (snd b) r r)) bins).
Proof.
  intros K _ _. unfold angcorrel. destruct (list_eq_dec Nat.eq_dec dims dims); [|congruence]. destruct (list_eq_dec Nat.eq_dec rdims rdims); [|congruence]. cbn [check obind].
  rewrite repeat_map, fold_dd by exact K. cbn [obind]. rewrite fold_rr by exact K. cbn [obind]. f_equal. rewrite !combine_map2, map_map. reflexivity.
Qed.
End Ang.

(* ---- pairs of different sources ---- *)
Lemma filter_split {A} (p q : A -> bool) l : length (filter p l) = length (filter (fun x => negb (q x) && p x) l) + length (filter (fun x => q x && p x) l).
Proof. induction l as [|x l IH]; [reflexivity|]. cbn. destruct (p x), (q x); cbn; lia. Qed.
Lemma list_prod_map {A B} (g : A -> B) : forall a b, list_prod (map g a) (map g b) = map (fun p => (g (fst p), g (snd p))) (list_prod a b).
Proof. induction a as [|x a IH]; intros b; [reflexivity|]. cbn [map list_prod]. rewrite map_app, IH, !map_map. reflexivity. Qed.
Lemma as_map {A} (d : A) l : l = map (fun i => nth i l d) (seq 0 (length l)).
Proof.
  apply list_nth_ext. intros i. rewrite nth_error_map. destruct (Nat.lt_ge_cases i (length l)) as [H|H].
  - rewrite (nth_error_nth' (seq 0 (length l)) 0) by (rewrite seq_length; exact H). rewrite seq_nth by exact H. cbn [option_map Nat.add]. apply nth_error_nth'. exact H.
  - replace (nth_error (seq 0 (length l)) i) with (@None nat) by (symmetry; apply nth_error_None; rewrite seq_length; exact H). apply nth_error_None. exact H.
Qed.
Lemma row_diag (q : bool) x : forall t, NoDup t -> In x t -> length (filter (fun y => (x =? y) && q) t) = if q then 1 else 0.
Proof.
  induction t as [|y t IH]; intros N I; [destruct I|]. inversion N as [|? ? Ny N']; subst. cbn. destruct I as [->|I].
  - rewrite Nat.eqb_refl. assert (Z0 : length (filter (fun y => (x =? y) && q) t) = 0).
    { assert (forall u, In u t -> (x =? u) && q = false) as H by (intros u Hu; destruct (Nat.eqb_spec x u) as [->|]; [contradiction|reflexivity]). clear - H. induction t as [|u t IH]; [reflexivity|]. cbn. rewrite H by (left; reflexivity). apply IH. intros v Hv. apply H. right. exact Hv. }
    destruct q; cbn; rewrite ?Z0; reflexivity.
  - destruct (Nat.eqb_spec x y) as [->|]; [contradiction|]. cbn. apply IH; assumption.
Qed.
Lemma diag (f : nat * nat -> bool) (Q0 : nat -> bool) : (forall i, f (i, i) = Q0 i) -> forall t, NoDup t -> forall s, incl s t ->
  length (filter (fun ij => (fst ij =? snd ij) && f ij) (list_prod s t)) = length (filter Q0 s).
Proof.
  intros F t N. induction s as [|x s IH]; intros I; [reflexivity|]. cbn [list_prod]. rewrite filter_app, app_length, IH by (intros y Hy; apply I; right; exact Hy). rewrite filter_map_length. cbn [fst snd].
  rewrite (filter_ext (fun y => (x =? y) && f (x, y)) (fun y => (x =? y) && Q0 x)) by (intros y; destruct (Nat.eqb_spec x y) as [->|]; [rewrite F|]; reflexivity).
  rewrite row_diag by (try exact N; apply I; left; reflexivity). cbn [filter]. destruct (Q0 x); reflexivity.
Qed.
Lemma filter_all {A} (q : bool) (l : list A) : length (filter (fun _ => q) l) = if q then length l else 0.
Proof. induction l as [|x l IH]; [destruct q; reflexivity|]. cbn. destruct q; cbn; rewrite ?IH; reflexivity. Qed.
Lemma filter_ext_len {A} (f g : A -> bool) (l : list A) : (forall x, In x l -> f x = g x) -> length (filter f l) = length (filter g l).
Proof. intros H. induction l as [|x l IH]; [reflexivity|]. cbn. rewrite (H x) by (left; reflexivity). destruct (g x); cbn; rewrite IH; auto; intros y Hy; apply H; right; exact Hy. Qed.
Lemma pairs_self {P} (dist : P -> P -> option Q) lo hi (a : list P) q : (forall x, In x a -> within lo hi (dist x x) = q) ->
  pairs dist lo hi a a = distinct_pairs dist lo hi a + if q then length a else 0.
Proof.
  intros H. destruct a as [|x0 a0] eqn:Ea; [destruct q; reflexivity|]. rewrite <- Ea in *. assert (Ne : a <> []) by congruence. clear Ea.
  unfold pairs. rewrite (as_map x0 a) at 1 2. rewrite list_prod_map, filter_map_length. cbn [fst snd].
  rewrite (filter_split _ (fun ij => fst ij =? snd ij)). unfold distinct_pairs. f_equal.
  - apply filter_ext_len. intros [i j] I. apply in_prod_iff in I. destruct I as [I J]. apply in_seq in I, J. cbn [fst snd]. rewrite (nth_error_nth' a x0), (nth_error_nth' a x0) by lia. reflexivity.
  - rewrite (diag _ (fun i => within lo hi (dist (nth i a x0) (nth i a x0)))); [|reflexivity|apply seq_NoDup|apply incl_refl].
    rewrite (filter_ext_len _ (fun _ => q)) by (intros i I; apply in_seq in I; apply H; apply nth_In; lia). rewrite filter_all, seq_length. reflexivity.
Qed.
