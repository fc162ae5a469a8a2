(* Proofs for element-wise operators. *)
From Verif Require Import Base IndexModel VecModel VecSpec VecProofs ViewModel ViewProofs OpModel OpSpec.
From Coq Require Import String.
Local Open Scope string_scope.
Local Open Scope list_scope.
Local Open Scope nat_scope.

Definition each {A B C} (f : A -> B -> outcome C) (l1 : list A) (l2 : list B) : outcome (list C) :=
  omapl (fun p => f (fst p) (snd p)) (combine l1 l2).

Lemma omapl_pointwise (A C : Type) (f : A -> outcome C) : forall l,
  (exists r, omapl f l = Ok r /\ List.length r = List.length l /\
    forall i a c, nth_error l i = Some a -> nth_error r i = Some c -> f a = Ok c) \/
  (exists i a, nth_error l i = Some a /\
    (f a = CheckFail /\ omapl f l = CheckFail \/ f a = UB /\ omapl f l = UB \/
     f a = Throws /\ omapl f l = Throws \/ f a = Diverge /\ omapl f l = Diverge) /\
    forall j a', j < i -> nth_error l j = Some a' -> exists c, f a' = Ok c).
Proof.
  induction l as [|x t IH]; simpl.
  - left. exists []. repeat split; auto. intros [|i] a c H; discriminate.
  - destruct (f x) as [y| | | |] eqn:E; simpl;
      try (right; exists 0, x; split; [reflexivity|split; [rewrite E; tauto|intros j a' Hj; lia]]).
    destruct IH as [(r & -> & L & P)|(i & a & Hi & Ho & Hb)].
    + left. exists (y :: r). simpl. repeat split; auto.
      intros [|i] a c H1 H2; simpl in *; [congruence|eauto].
    + right. exists (S i), a. split; [exact Hi|split].
      * destruct Ho as [[-> ->]|[[-> ->]|[[-> ->]|[-> ->]]]]; simpl; tauto.
      * intros [|j] a' Hj H; simpl in H; [injection H as <-; eauto|apply (Hb j); auto; lia].
Qed.

Lemma combine_nth (A B : Type) : forall (l1 : list A) (l2 : list B) i a b,
  nth_error (combine l1 l2) i = Some (a, b) <-> nth_error l1 i = Some a /\ nth_error l2 i = Some b.
Proof.
  induction l1 as [|x t IH]; intros [|y t2] [|i] a b; simpl; try (split; [discriminate|intros [? ?]; discriminate]).
  - split; [intros H; injection H as -> ->; auto|intros [H1 H2]; congruence].
  - apply IH.
Qed.

Lemma each_spec (A B C : Type) (f : A -> B -> outcome C) (l1 : list A) (l2 : list B) (g : list C -> vec C) :
  List.length l1 = List.length l2 ->
  (exists r, omap g (each f l1 l2) = Ok (g r) /\ pointwise f l1 l2 r) \/ fails f l1 l2 (omap g (each f l1 l2)).
Proof.
  intros L. unfold each, omap.
  destruct (omapl_pointwise _ _ (fun p => f (fst p) (snd p)) (combine l1 l2)) as [(r & E & L' & P)|(i & [a b] & Hi & Ho & Hb)].
  - left. exists r. rewrite E. split; [reflexivity|]. rewrite combine_length, <- L, Nat.min_id in L'.
    repeat split; try lia. intros i a b c H1 H2 H3.
    apply (P i (a, b)); auto. apply combine_nth; auto.
  - right. exists i, a, b. apply combine_nth in Hi. destruct Hi as [Hi Hi2]. repeat split; auto.
    + simpl in Ho. destruct Ho as [[-> ->]|[[-> ->]|[[-> ->]|[-> ->]]]]; simpl; tauto.
    + intros j a' b' Hj H1 H2. apply (Hb j (a', b')); auto. apply combine_nth; auto.
Qed.

(* the same with a store as a by-product *)
Lemma each_spec' (A B C D : Type) (f : A -> B -> outcome C) (l1 : list A) (l2 : list B) (g : list C -> D) :
  List.length l1 = List.length l2 ->
  (exists r, omap g (each f l1 l2) = Ok (g r) /\ pointwise f l1 l2 r) \/ fails f l1 l2 (omap g (each f l1 l2)).
Proof.
  intros L. unfold each, omap.
  destruct (omapl_pointwise _ _ (fun p => f (fst p) (snd p)) (combine l1 l2)) as [(r & E & L' & P)|(i & [a b] & Hi & Ho & Hb)].
  - left. exists r. rewrite E. split; [reflexivity|]. rewrite combine_length, <- L, Nat.min_id in L'.
    repeat split; try lia. intros i a b c H1 H2 H3.
    apply (P i (a, b)); auto. apply combine_nth; auto.
  - right. exists i, a, b. apply combine_nth in Hi. destruct Hi as [Hi Hi2]. repeat split; auto.
    + simpl in Ho. destruct Ho as [[-> ->]|[[-> ->]|[[-> ->]|[-> ->]]]]; simpl; tauto.
    + intros j a' b' Hj H1 H2. apply (Hb j (a', b')); auto. apply combine_nth; auto.
Qed.

(* ---- loops ---------------------------------------------------------------- *)

Lemma build_omapl (C : Type) (e : nat -> outcome C) n : build n e = omapl e (seq 0 n).
Proof.
  unfold build. generalize 0 as s. intros s.
  assert (H : forall n s (p : list C),
    ofold (fun tv i => y <- e i ;; Ok (tv ++ [y])) (seq s n) p = omap (app p) (omapl e (seq s n))).
  { clear. induction n as [|n IH]; intros s p; simpl; [rewrite app_nil_r; reflexivity|].
    destruct (e s); simpl; try reflexivity. rewrite IH. unfold omap.
    destruct (omapl e (seq (S s) n)); simpl; try reflexivity. rewrite <- app_assoc. reflexivity. }
  rewrite H. unfold omap. destruct (omapl e (seq s n)); reflexivity.
Qed.

Lemma omapl_seq_list (A C : Type) (g : A -> outcome C) : forall (l : list A) (e : nat -> outcome C) s,
  (forall i x, nth_error l i = Some x -> e (s + i) = g x) ->
  omapl e (seq s (List.length l)) = omapl g l.
Proof.
  induction l as [|x t IH]; intros e s H; simpl; [reflexivity|].
  rewrite <- (H 0 x eq_refl), Nat.add_0_r. destruct (e s); simpl; try reflexivity.
  rewrite (IH e (S s)); [reflexivity|]. intros i y Hi. rewrite <- (H (S i) y Hi). f_equal; lia.
Qed.

Lemma build_each (A B C : Type) (f : A -> B -> outcome C) (l1 : list A) (l2 : list B) (e : nat -> outcome C) :
  List.length l1 = List.length l2 ->
  (forall i a b, nth_error l1 i = Some a -> nth_error l2 i = Some b -> e i = f a b) ->
  build (List.length l1) e = each f l1 l2.
Proof.
  intros L H. rewrite build_omapl. unfold each.
  replace (List.length l1) with (List.length (combine l1 l2)) by (rewrite combine_length; lia).
  apply omapl_seq_list. intros i [a b] Hi. apply combine_nth in Hi. apply H; tauto.
Qed.

Lemma oset_mid (C : Type) (p t : list C) x y : oset (p ++ x :: t) (List.length p) y = Ok (p ++ y :: t).
Proof.
  unfold oset. replace (List.length p <? List.length (p ++ x :: t)) with true
    by (symmetry; apply Nat.ltb_lt; rewrite app_length; simpl; lia).
  rewrite upd_fill_app. reflexivity.
Qed.

Lemma fill_gen (C : Type) (e : list C -> nat -> outcome C) (h : nat -> outcome C) : forall t p,
  (forall p' t' i, List.length p' = i -> List.length p <= i -> skipn (i - List.length p) t = t' -> t' <> [] ->
     e (p' ++ t') i = h i) ->
  ofold (fun tv i => y <- e tv i ;; oset tv i y) (seq (List.length p) (List.length t)) (p ++ t) =
  omap (app p) (omapl h (seq (List.length p) (List.length t))).
Proof.
  induction t as [|x t IH]; intros p H; simpl.
  - reflexivity.
  - rewrite (H p (x :: t) (List.length p)); auto; try (rewrite Nat.sub_diag; reflexivity); try discriminate.
    destruct (h (List.length p)) as [y| | | |]; simpl; try reflexivity.
    rewrite oset_mid. cbn [obind]. replace (p ++ y :: t) with ((p ++ [y]) ++ t) by (rewrite <- app_assoc; reflexivity).
    specialize (IH (p ++ [y])). rewrite app_length, Nat.add_1_r in IH. rewrite IH.
    + unfold omap. destruct (omapl h (seq (S (List.length p)) (List.length t))); simpl; try reflexivity.
      rewrite <- app_assoc. reflexivity.
    + intros p' t' i Hp Hi Ht Hn. apply H; auto; try lia.
      replace (i - List.length p) with (S (i - S (List.length p))) by lia. exact Ht.
Qed.

Lemma fill_omapl (C : Type) (e : list C -> nat -> outcome C) (h : nat -> outcome C) tv :
  (forall p i, List.length p = i -> i < List.length tv -> e (p ++ skipn i tv) i = h i) ->
  fill (List.length tv) e tv = omapl h (seq 0 (List.length tv)).
Proof.
  intros H. unfold fill. pose proof (fill_gen _ e h tv []) as G. simpl in G. rewrite G.
  - unfold omap. destruct (omapl h (seq 0 (List.length tv))); reflexivity.
  - intros p' t' i Hp _ Ht Hn. rewrite Nat.sub_0_r in Ht. subst t'. apply H; auto.
    destruct (Nat.lt_ge_cases i (List.length tv)); auto. exfalso. apply Hn. apply skipn_all2. lia.
Qed.

Lemma fill_each (A B C : Type) (f : A -> B -> outcome C) (l1 : list A) (l2 : list B) (e : list C -> nat -> outcome C) tv :
  List.length tv = List.length l1 -> List.length l1 = List.length l2 ->
  (forall p i a b, List.length p = i -> nth_error l1 i = Some a -> nth_error l2 i = Some b -> e (p ++ skipn i tv) i = f a b) ->
  fill (List.length l1) e tv = each f l1 l2.
Proof.
  intros L1 L2 H.
  set (h := fun i => match nth_error l1 i, nth_error l2 i with Some a, Some b => f a b | _, _ => UB end).
  rewrite <- L1, (fill_omapl _ e h).
  - unfold each. replace (List.length tv) with (List.length (combine l1 l2)) by (rewrite combine_length; lia).
    apply omapl_seq_list. intros i [a b] Hi. apply combine_nth in Hi. destruct Hi as [H1 H2].
    simpl. unfold h. rewrite H1, H2. reflexivity.
  - intros p i Hp Hi. unfold h.
    destruct (nth_error l1 i) as [a|] eqn:E1; [|apply nth_error_None in E1; lia].
    destruct (nth_error l2 i) as [b|] eqn:E2; [|apply nth_error_None in E2; lia]. eauto.
Qed.

Lemma skipn_cons_nth (A : Type) (l : list A) i x : nth_error l i = Some x -> skipn i l = x :: skipn (S i) l.
Proof. revert i; induction l as [|y t IH]; intros [|i] H; simpl in *; try discriminate; [congruence|apply IH, H]. Qed.

Lemma oget_prefix (A : Type) (p l : list A) i x : List.length p = i -> nth_error l i = Some x ->
  oget (p ++ skipn i l) i = Ok x.
Proof.
  intros Hp Hx. apply oget_Ok. rewrite nth_error_app2 by lia. rewrite <- Hp, Nat.sub_diag.
  rewrite Hp, (skipn_cons_nth _ _ _ _ Hx). reflexivity.
Qed.

(* ---- operands ------------------------------------------------------------- *)

Lemma deref_length (A : Type) (st : store A) : forall ps l, deref st ps = Some l -> List.length l = List.length ps.
Proof.
  induction ps as [|[k i] t IH]; simpl; intros l H; [injection H as <-; reflexivity|].
  destruct (nth_error st k) as [v|]; [|discriminate]. destruct (nth_error (v_data v) i); [|discriminate].
  destruct (deref st t); [|discriminate]. injection H as <-. simpl. f_equal. apply IH; reflexivity.
Qed.

Lemma deref_nth (A : Type) (st : store A) : forall ps l i x, deref st ps = Some l -> nth_error l i = Some x ->
  exists p, nth_error ps i = Some p /\ read st p = Ok x.
Proof.
  induction ps as [|[k j] t IH]; simpl; intros l i x H Hx; [injection H as <-; destruct i; discriminate|].
  destruct (nth_error st k) as [v|] eqn:E; [|discriminate].
  destruct (nth_error (v_data v) j) as [y|] eqn:E2; [|discriminate].
  destruct (deref st t) as [r|]; [|discriminate]. injection H as <-. destruct i as [|i]; simpl in *.
  - injection Hx as <-. exists (k, j). split; [reflexivity|]. unfold read, oget. simpl. rewrite E. simpl. rewrite E2. reflexivity.
  - apply (IH r); auto.
Qed.

Section Ops.
Context {A B C : Type}.

Lemma o_dims_value (st : store A) o v : value st o = Some v -> o_dims st o = Ok (v_dims v).
Proof.
  destruct o as [k|w]; simpl; intros H.
  - unfold oget. rewrite H. reflexivity.
  - destruct (deref st (w_ptrs w)); [|discriminate]. simpl in H. injection H as <-. reflexivity.
Qed.

Lemma o_size_value (st : store A) o v : value st o = Some v -> o_size st o = Ok (List.length (v_data v)).
Proof.
  destruct o as [k|w]; simpl; intros H.
  - unfold oget. rewrite H. reflexivity.
  - destruct (deref st (w_ptrs w)) eqn:E; [|discriminate]. simpl in H. injection H as <-. simpl.
    rewrite (deref_length _ _ _ _ E). reflexivity.
Qed.

Lemma o_get_value (st : store A) o v i x : value st o = Some v -> nth_error (v_data v) i = Some x -> o_get st o i = Ok x.
Proof.
  destruct o as [k|w]; simpl; intros H Hx.
  - unfold read, oget. simpl. rewrite H. simpl. rewrite Hx. reflexivity.
  - destruct (deref st (w_ptrs w)) eqn:E; [|discriminate]. simpl in H. injection H as <-. simpl in Hx.
    destruct (deref_nth _ _ _ _ _ _ E Hx) as (p & Hp & Hr). unfold oget. rewrite Hp. exact Hr.
Qed.

Lemma s_get_value (st : store A) s x : svalue st s = Some x -> s_get st s = Ok x.
Proof.
  destruct s as [y|[k i]]; simpl; [congruence|]. unfold read, oget. simpl.
  destruct (nth_error st k) as [v|]; [|discriminate]. simpl. intros ->. reflexivity.
Qed.
End Ops.

Lemma dims_eqb_dec a b : dims_eqb a b = if list_eq_dec Nat.eq_dec a b then true else false.
Proof. reflexivity. Qed.

Lemma repeat_nth (A : Type) (x y : A) n i : nth_error (repeat x n) i = Some y -> y = x.
Proof. revert i; induction n as [|n IH]; intros [|i] H; simpl in *; try discriminate; [congruence|eauto]. Qed.

Lemma bin_vv_ok (A B C : Type) (f : A -> B -> outcome C) sa v sb u va ub :
  value sa v = Some va -> value sb u = Some ub -> shaped va -> shaped ub ->
  elementwise f va ub (bin_vv f sa v sb u).
Proof.
  intros Hv Hu Sv Su. unfold elementwise, bin_vv.
  rewrite (o_dims_value _ _ _ Hv), (o_dims_value _ _ _ Hu). cbn [obind].
  rewrite dims_eqb_dec. destruct (list_eq_dec Nat.eq_dec (v_dims va) (v_dims ub)) as [E|E]; [|reflexivity].
  cbn [check obind]. rewrite (o_size_value _ _ _ Hv). cbn [obind].
  assert (L : List.length (v_data va) = List.length (v_data ub)) by (unfold shaped in *; congruence).
  rewrite (build_each _ _ _ f (v_data va) (v_data ub)); auto.
  - apply each_spec with (g := mk_vec (v_dims va)). exact L.
  - intros i a b Ha Hb. rewrite (o_get_value _ _ _ _ _ Hv Ha). cbn [obind].
    rewrite (o_get_value _ _ _ _ _ Hu Hb). reflexivity.
Qed.

Lemma bin_vs_ok (A B C : Type) (f : A -> B -> outcome C) sa v sb s va x :
  value sa v = Some va -> svalue sb s = Some x ->
  elementwise f va (spread va x) (bin_vs f sa v sb s).
Proof.
  intros Hv Hs. unfold elementwise, bin_vs. cbn [v_dims spread].
  destruct (list_eq_dec Nat.eq_dec (v_dims va) (v_dims va)) as [_|E]; [|congruence].
  rewrite (o_dims_value _ _ _ Hv), (o_size_value _ _ _ Hv). cbn [obind].
  assert (L : List.length (v_data va) = List.length (v_data (spread va x))) by (simpl; rewrite repeat_length; reflexivity).
  rewrite (build_each _ _ _ f (v_data va) (v_data (spread va x))); auto.
  - apply each_spec with (g := mk_vec (v_dims va)). exact L.
  - intros i a b Ha Hb. rewrite (o_get_value _ _ _ _ _ Hv Ha). cbn [obind].
    rewrite (s_get_value _ _ _ Hs). apply repeat_nth in Hb. subst b. reflexivity.
Qed.

Lemma bin_sv_ok (A B C : Type) (f : A -> B -> outcome C) sa s sb v vb x :
  svalue sa s = Some x -> value sb v = Some vb ->
  elementwise f (spread vb x) vb (bin_sv f sa s sb v).
Proof.
  intros Hs Hv. unfold elementwise, bin_sv. cbn [v_dims spread].
  destruct (list_eq_dec Nat.eq_dec (v_dims vb) (v_dims vb)) as [_|E]; [|congruence].
  rewrite (o_dims_value _ _ _ Hv), (o_size_value _ _ _ Hv). cbn [obind].
  assert (L : List.length (v_data (spread vb x)) = List.length (v_data vb)) by (simpl; rewrite repeat_length; reflexivity).
  rewrite <- L, (build_each _ _ _ f (v_data (spread vb x)) (v_data vb)); auto.
  - apply each_spec with (g := mk_vec (v_dims vb)). exact L.
  - intros i a b Ha Hb. rewrite (s_get_value _ _ _ Hs). cbn [obind].
    rewrite (o_get_value _ _ _ _ _ Hv Hb). apply repeat_nth in Ha. subst a. reflexivity.
Qed.

(* ---- comparisons ---------------------------------------------------------- *)

Lemma vec_ctor_wf (A B : Type) (d : B) (va : vec A) : wf va ->
  vec_ctor d (v_dims va) = Ok (mk_vec (v_dims va) (repeat d (List.length (v_data va)))).
Proof.
  intros [L M]. unfold vec_ctor, vec_resize_, data_resize. cbn [v_dims v_data].
  rewrite nwrap_small by (rewrite <- L; apply max_lt_two64, M). rewrite <- L.
  destruct (N.leb_spec (N.of_nat (List.length (v_data va))) max_elems) as [_|H]; [|exfalso; apply (N.lt_irrefl max_elems), (N.lt_le_trans _ _ _ H M)].
  cbn [obind]. rewrite firstn_nil, Nat.sub_0_r. reflexivity.
Qed.

Definition orel {A B} (r : A -> B -> bool) (x : A) (y : B) : outcome bool := Ok (r x y).

Lemma cmp_vv_ok (A B : Type) (r : A -> B -> bool) sa v sb u va ub :
  value sa v = Some va -> value sb u = Some ub -> wf va -> wf ub ->
  elementwise (orel r) va ub (cmp_vv r sa v sb u).
Proof.
  intros Hv Hu Sv Su. unfold elementwise, cmp_vv.
  rewrite (o_dims_value _ _ _ Hv), (o_dims_value _ _ _ Hu). cbn [obind].
  rewrite dims_eqb_dec. destruct (list_eq_dec Nat.eq_dec (v_dims va) (v_dims ub)) as [E|E]; [|reflexivity].
  cbn [check obind]. rewrite (vec_ctor_wf A _ _ va Sv). cbn [obind]. rewrite (o_size_value _ _ _ Hv). cbn [obind v_data v_dims].
  assert (L : List.length (v_data va) = List.length (v_data ub)) by (destruct Sv, Su; congruence).
  rewrite (fill_each _ _ _ (orel r) (v_data va) (v_data ub)); auto.
  - apply each_spec with (g := mk_vec (v_dims va)). exact L.
  - apply repeat_length.
  - intros p i a b _ Ha Hb. rewrite (o_get_value _ _ _ _ _ Hv Ha). cbn [obind].
    rewrite (o_get_value _ _ _ _ _ Hu Hb). reflexivity.
Qed.

Lemma cmp_vs_ok (A B : Type) (r : A -> B -> bool) sa v sb s va x :
  value sa v = Some va -> svalue sb s = Some x -> wf va ->
  elementwise (orel r) va (spread va x) (cmp_vs r sa v sb s).
Proof.
  intros Hv Hs Sv. unfold elementwise, cmp_vs. cbn [v_dims spread].
  destruct (list_eq_dec Nat.eq_dec (v_dims va) (v_dims va)) as [_|E]; [|congruence].
  rewrite (o_dims_value _ _ _ Hv). cbn [obind]. rewrite (vec_ctor_wf A _ _ va Sv). cbn [obind].
  rewrite (o_size_value _ _ _ Hv). cbn [obind v_data v_dims].
  assert (L : List.length (v_data va) = List.length (v_data (spread va x))) by (simpl; rewrite repeat_length; reflexivity).
  rewrite (fill_each _ _ _ (orel r) (v_data va) (v_data (spread va x))); auto.
  - apply each_spec with (g := mk_vec (v_dims va)). exact L.
  - apply repeat_length.
  - intros p i a b _ Ha Hb. rewrite (o_get_value _ _ _ _ _ Hv Ha). cbn [obind].
    rewrite (s_get_value _ _ _ Hs). apply repeat_nth in Hb. subst b. reflexivity.
Qed.

Lemma cmp_sv_ok (A B : Type) (r : A -> B -> bool) sa s sb v vb x :
  svalue sa s = Some x -> value sb v = Some vb -> wf vb ->
  elementwise (orel r) (spread vb x) vb (cmp_sv r sa s sb v).
Proof.
  intros Hs Hv Sv. unfold elementwise, cmp_sv. cbn [v_dims spread].
  destruct (list_eq_dec Nat.eq_dec (v_dims vb) (v_dims vb)) as [_|E]; [|congruence].
  rewrite (o_dims_value _ _ _ Hv). cbn [obind]. rewrite (vec_ctor_wf B _ _ vb Sv). cbn [obind].
  rewrite (o_size_value _ _ _ Hv). cbn [obind v_data v_dims].
  assert (L : List.length (v_data (spread vb x)) = List.length (v_data vb)) by (simpl; rewrite repeat_length; reflexivity).
  rewrite <- L, (fill_each _ _ _ (orel r) (v_data (spread vb x)) (v_data vb)); auto.
  - apply each_spec with (g := mk_vec (v_dims vb)). exact L.
  - rewrite repeat_length. reflexivity.
  - intros p i a b _ Ha Hb. rewrite (s_get_value _ _ _ Hs). cbn [obind].
    rewrite (o_get_value _ _ _ _ _ Hv Hb). apply repeat_nth in Ha. subst a. reflexivity.
Qed.

(* ---- logical operators ---------------------------------------------------- *)

Lemma copy_of_ok (A : Type) (st : store A) o v : value st o = Some v -> copy_of st o = Ok v.
Proof.
  intros H. unfold copy_of. rewrite (o_dims_value _ _ _ H), (o_size_value _ _ _ H). cbn [obind].
  rewrite build_omapl, (omapl_seq_list A A (fun x => Ok x) (v_data v)).
  - replace (omapl (fun x => Ok x) (v_data v)) with (Ok (v_data v)).
    + destruct v; reflexivity.
    + clear. induction (v_data v) as [|x t IH]; simpl; [reflexivity|]. rewrite <- IH. reflexivity.
  - intros i x Hx. simpl. apply (o_get_value _ _ _ _ _ H Hx).
Qed.

Lemma log_vv_ok g st v1 v2 a b : value st v1 = Some a -> value st v2 = Some b -> shaped a -> shaped b ->
  elementwise (olog g) a b (log_vv g st v1 v2).
Proof.
  intros Hv Hu Sv Su. unfold elementwise, log_vv.
  rewrite (o_dims_value _ _ _ Hv), (o_dims_value _ _ _ Hu). cbn [obind].
  rewrite dims_eqb_dec. destruct (list_eq_dec Nat.eq_dec (v_dims a) (v_dims b)) as [E|E]; [|reflexivity].
  cbn [check obind]. rewrite (copy_of_ok _ _ _ _ Hv), (o_size_value _ _ _ Hv). cbn [obind].
  assert (L : List.length (v_data a) = List.length (v_data b)) by (unfold shaped in *; congruence).
  rewrite (fill_each _ _ _ (olog g) (v_data a) (v_data b)); auto.
  - apply each_spec with (g := mk_vec (v_dims a)). exact L.
  - intros p i x y Hp Ha Hb. rewrite (oget_prefix _ _ _ _ _ Hp Ha). cbn [obind].
    rewrite (o_get_value _ _ _ _ _ Hu Hb). reflexivity.
Qed.

Lemma log_vs_ok g st v1 a b : value st v1 = Some a -> elementwise (olog g) a (spread a b) (log_vs g st v1 b).
Proof.
  intros Hv. unfold elementwise, log_vs. cbn [v_dims spread].
  destruct (list_eq_dec Nat.eq_dec (v_dims a) (v_dims a)) as [_|E]; [|congruence].
  rewrite (copy_of_ok _ _ _ _ Hv), (o_size_value _ _ _ Hv). cbn [obind].
  assert (L : List.length (v_data a) = List.length (v_data (spread a b))) by (simpl; rewrite repeat_length; reflexivity).
  rewrite (fill_each _ _ _ (olog g) (v_data a) (v_data (spread a b))); auto.
  - apply each_spec with (g := mk_vec (v_dims a)). exact L.
  - intros p i x y Hp Ha Hb. rewrite (oget_prefix _ _ _ _ _ Hp Ha). apply repeat_nth in Hb. subst y. reflexivity.
Qed.

Lemma log_sv_ok g st v2 a b : value st v2 = Some a -> elementwise (olog g) (spread a b) a (log_sv g st b v2).
Proof.
  intros Hv. unfold elementwise, log_sv. cbn [v_dims spread].
  destruct (list_eq_dec Nat.eq_dec (v_dims a) (v_dims a)) as [_|E]; [|congruence].
  rewrite (copy_of_ok _ _ _ _ Hv), (o_size_value _ _ _ Hv). cbn [obind].
  assert (L : List.length (v_data (spread a b)) = List.length (v_data a)) by (simpl; rewrite repeat_length; reflexivity).
  rewrite <- L, (fill_each _ _ _ (olog g) (v_data (spread a b)) (v_data a)); auto.
  - apply each_spec with (g := mk_vec (v_dims a)). exact L.
  - intros p i x y Hp Ha Hb. rewrite (oget_prefix _ _ _ _ _ Hp Hb). apply repeat_nth in Ha. subst x. reflexivity.
Qed.

Lemma un_op_ok (A : Type) (f : A -> outcome A) st v a : value st v = Some a ->
  elementwise (fun x (_ : unit) => f x) a (spread a tt) (un_op f st v).
Proof.
  intros Hv. unfold elementwise, un_op. cbn [v_dims spread].
  destruct (list_eq_dec Nat.eq_dec (v_dims a) (v_dims a)) as [_|E]; [|congruence].
  rewrite (copy_of_ok _ _ _ _ Hv). cbn [obind]. unfold v_size.
  assert (L : List.length (v_data a) = List.length (v_data (spread a tt))) by (simpl; rewrite repeat_length; reflexivity).
  rewrite (fill_each _ _ _ (fun x (_ : unit) => f x) (v_data a) (v_data (spread a tt))); auto.
  - apply each_spec with (g := mk_vec (v_dims a)). exact L.
  - intros p i x y Hp Ha Hb. rewrite (oget_prefix _ _ _ _ _ Hp Ha). reflexivity.
Qed.

(* ---- temporaries reused in place ------------------------------------------- *)

Section InPlace.
Context {A B : Type}.

Lemma ip_gen (g : A -> B -> outcome A) (get : store A -> nat -> outcome B) (st : store A) k dims : k < List.length st ->
  forall t l p,
  List.length l = List.length t ->
  (forall p' i b, i < List.length t -> List.length p' = List.length p + i -> nth_error l i = Some b ->
     get (upd st k (mk_vec dims (p' ++ skipn i t))) (List.length p + i) = Ok b) ->
  ofold (fun st i => y <- read st (k, i) ;; x <- get st i ;; z <- g y x ;; write st (k, i) z)
    (seq (List.length p) (List.length t)) (upd st k (mk_vec dims (p ++ t))) =
  omap (fun r => upd st k (mk_vec dims (p ++ r))) (each g t l).
Proof.
  intros Hk. induction t as [|x t IH]; intros l p L H; simpl.
  - destruct l; [|discriminate]. reflexivity.
  - destruct l as [|b l]; [discriminate|].
    assert (R : read (upd st k (mk_vec dims (p ++ x :: t))) (k, List.length p) = Ok x).
    { unfold read. simpl. unfold oget at 1. rewrite nth_error_upd_same by exact Hk. cbn [obind v_data].
      apply oget_Ok. rewrite nth_error_app2, Nat.sub_diag; auto. }
    rewrite R. cbn [obind].
    assert (G := H p 0 b). simpl in G. rewrite Nat.add_0_r in G. rewrite G by (auto; lia). cbn [obind].
    unfold each. cbn [combine omapl fst snd].
    destruct (g x b) as [z| | | |]; simpl; try reflexivity.
    assert (W : write (upd st k (mk_vec dims (p ++ x :: t))) (k, List.length p) z = Ok (upd st k (mk_vec dims ((p ++ [z]) ++ t)))).
    { unfold write. simpl. unfold oget. rewrite nth_error_upd_same by exact Hk. cbn [obind v_data v_dims].
      unfold oset at 1. replace (List.length p <? List.length (p ++ x :: t)) with true
        by (symmetry; apply Nat.ltb_lt; rewrite app_length; simpl; lia).
      cbn [obind]. unfold oset. rewrite upd_length. replace (k <? List.length st) with true by (symmetry; apply Nat.ltb_lt; exact Hk).
      rewrite upd_upd, upd_fill_app, <- app_assoc. reflexivity. }
    rewrite W. cbn [obind]. specialize (IH l (p ++ [z])). rewrite app_length, Nat.add_1_r in IH. rewrite IH.
    + unfold each, omap. destruct (omapl (fun p0 => g (fst p0) (snd p0)) (combine t l)); simpl; try reflexivity.
      rewrite <- app_assoc. reflexivity.
    + simpl in L. lia.
    + intros p' i b' Hi Hp' Hb'. rewrite Nat.add_succ_comm. apply (H p' (S i) b'); simpl; auto; lia.
Qed.

Lemma ip_loop_ok (g : A -> B -> outcome A) (get : store A -> nat -> outcome B) (st : store A) k v l :
  nth_error st k = Some v -> List.length l = List.length (v_data v) ->
  (forall p i b, i < List.length (v_data v) -> List.length p = i -> nth_error l i = Some b ->
     get (upd st k (mk_vec (v_dims v) (p ++ skipn i (v_data v)))) i = Ok b) ->
  ip_loop g get st k (List.length (v_data v)) = omap (fun r => upd st k (mk_vec (v_dims v) r)) (each g (v_data v) l).
Proof.
  intros Hv L H. unfold ip_loop.
  rewrite <- (upd_same _ st k v Hv) at 1. replace v with (mk_vec (v_dims v) ([] ++ v_data v)) at 2 by (destruct v; reflexivity).
  apply (ip_gen g get st k (v_dims v)) with (p := []).
  - apply nth_error_Some. congruence.
  - exact L.
  - intros p' i b Hi Hp Hb. apply H; auto.
Qed.

Lemma move_out_ok (st : store A) k d r : k < List.length st ->
  move_out (upd st k (mk_vec d r)) k = Ok (upd st k (mk_vec (repeat 0 (List.length d)) []), mk_vec d r).
Proof.
  intros Hk. unfold move_out, oget. rewrite nth_error_upd_same by exact Hk. cbn [obind vec_move_ctor v_dims v_data].
  unfold oset. rewrite upd_length. replace (k <? List.length st) with true by (symmetry; apply Nat.ltb_lt; exact Hk).
  cbn [obind]. rewrite upd_upd. reflexivity.
Qed.

(* result of an in-place operator: the vector, and a store without it *)
Lemma ip_result (g : A -> B -> outcome A) (get : store A -> nat -> outcome B) (st : store A) k v l :
  nth_error st k = Some v -> List.length l = List.length (v_data v) ->
  (forall p i b, i < List.length (v_data v) -> List.length p = i -> nth_error l i = Some b ->
     get (upd st k (mk_vec (v_dims v) (p ++ skipn i (v_data v)))) i = Ok b) ->
  (st' <- ip_loop g get st k (List.length (v_data v)) ;; move_out st' k) =
  omap (fun r => (upd st k (mk_vec (repeat 0 (List.length (v_dims v))) []), mk_vec (v_dims v) r)) (each g (v_data v) l).
Proof.
  intros Hv L H. rewrite (ip_loop_ok g get st k v l Hv L H). unfold omap.
  destruct (each g (v_data v) l); simpl; try reflexivity. apply move_out_ok. apply nth_error_Some. congruence.
Qed.

Lemma copy_result (g : A -> B -> outcome A) (get : store A -> nat -> outcome B) (st : store A) k v l :
  nth_error st k = Some v -> List.length l = List.length (v_data v) ->
  (forall p i b, i < List.length (v_data v) -> List.length p = i -> nth_error l i = Some b ->
     get (upd st k (mk_vec (v_dims v) (p ++ skipn i (v_data v)))) i = Ok b) ->
  (st' <- ip_loop g get st k (List.length (v_data v)) ;; copy_out st' k) =
  omap (fun r => (upd st k (mk_vec (v_dims v) r), mk_vec (v_dims v) r)) (each g (v_data v) l).
Proof.
  intros Hv L H. rewrite (ip_loop_ok g get st k v l Hv L H). unfold omap.
  destruct (each g (v_data v) l); simpl; try reflexivity. unfold copy_out, oget.
  rewrite nth_error_upd_same by (apply nth_error_Some; congruence). reflexivity.
Qed.
End InPlace.

(* reading an operand while vector k is being overwritten *)
Lemma read_upd_other (A : Type) (st : store A) k w p : fst p <> k -> read (upd st k w) p = read st p.
Proof. intros H. unfold read, oget. rewrite nth_error_upd_other by exact H. reflexivity. Qed.

Lemma o_get_during (A : Type) (st : store A) k v u ub p i b :
  nth_error st k = Some v -> value st u = Some ub -> apart k u -> i < List.length (v_data v) -> List.length p = i ->
  nth_error (v_data ub) i = Some b ->
  o_get (upd st k (mk_vec (v_dims v) (p ++ skipn i (v_data v)))) u i = Ok b.
Proof.
  intros Hv Hu Ha Hi Hp Hb. destruct u as [j|w]; simpl in *.
  - destruct (Nat.eq_dec j k) as [->|N].
    + assert (E : ub = v) by congruence. subst ub. unfold read. simpl. unfold oget at 1.
      rewrite nth_error_upd_same by (apply nth_error_Some; congruence). cbn [obind v_data].
      apply oget_prefix; auto.
    + rewrite read_upd_other by exact N. unfold read, oget. simpl. rewrite Hu. simpl. rewrite Hb. reflexivity.
  - destruct (deref st (w_ptrs w)) as [l|] eqn:E; [|discriminate]. simpl in Hu. injection Hu as <-. simpl in Hb.
    destruct (deref_nth _ _ _ _ _ _ E Hb) as (q & Hq & Hr). unfold oget. rewrite Hq. cbn [obind].
    rewrite read_upd_other; [exact Hr|]. rewrite Forall_forall in Ha. apply Ha. eapply nth_error_In, Hq.
Qed.

Lemma s_get_during (A : Type) (st : store A) k w s x : svalue st s = Some x -> sapart k s -> s_get (upd st k w) s = Ok x.
Proof.
  intros Hs Ha. rewrite <- (s_get_value _ _ _ Hs). destruct s as [y|p]; simpl in *; [reflexivity|]. apply read_upd_other, Ha.
Qed.

(* ---- printing ------------------------------------------------------------- *)

Lemma append_assoc a b c : append (append a b) c = append a (append b c).
Proof. induction a; simpl; [reflexivity|rewrite IHa; reflexivity]. Qed.
Lemma append_nil_r a : append a "" = a.
Proof. induction a; simpl; congruence. Qed.

Lemma print_gen (A : Type) (show : A -> string) (get : nat -> outcome A) : forall l s o,
  (forall i x, nth_error l i = Some x -> get (s + i) = Ok x) -> s <> 0 ->
  ofold (fun o i => let o := if i =? 0 then o else append o ", " in x <- get i ;; Ok (append o (show x))) (seq s (List.length l)) o
  = Ok (append o (fold_right (fun x r => append ", " (append (show x) r)) "" l)).
Proof.
  induction l as [|x t IH]; intros s o H Hs; cbn [List.length seq ofold].
  - simpl. rewrite append_nil_r. reflexivity.
  - pose proof (H 0 x eq_refl) as Hx. rewrite Nat.add_0_r in Hx. rewrite Hx. cbn [obind].
    destruct (Nat.eqb_spec s 0) as [E|_]; [contradiction|].
    rewrite (IH (S s)); [|intros i y Hi; rewrite <- (H (S i) y Hi); f_equal; lia|lia].
    cbn [fold_right]. rewrite !append_assoc. reflexivity.
Qed.

Lemma joined_cons l : forall x, joined (x :: l) = append x (fold_right (fun y r => append ", " (append y r)) "" l).
Proof.
  induction l as [|y t IH]; intros x; [simpl; rewrite append_nil_r; reflexivity|].
  change (joined (x :: y :: t)) with (append x (append ", " (joined (y :: t)))). rewrite IH. reflexivity.
Qed.

Lemma print_ok (A : Type) (show : A -> string) st v va o : value st v = Some va ->
  print show st v o = Ok (append o (append "{" (append (joined (map show (v_data va))) "}"))).
Proof.
  intros H. unfold print. rewrite (o_size_value _ _ _ H). cbn [obind].
  assert (G : forall i x, nth_error (v_data va) i = Some x -> o_get st v i = Ok x) by (intros; eapply o_get_value; eauto).
  destruct (v_data va) as [|x t]; cbn [List.length seq ofold].
  - simpl. rewrite append_assoc. reflexivity.
  - rewrite (G 0 x eq_refl). cbn [obind Nat.eqb]. rewrite (print_gen A show (o_get st v) t 1); [|intros i y Hi; apply (G (S i) y Hi)|lia].
    cbn [obind map]. rewrite joined_cons, !append_assoc. do 4 f_equal. clear.
    induction t as [|y t IH]; cbn [fold_right map]; [reflexivity|]. rewrite !append_assoc. rewrite IH. reflexivity.
Qed.
