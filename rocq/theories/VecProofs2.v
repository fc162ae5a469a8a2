From Verif Require Import Base IndexModel IndexSpec IndexProofs VecModel VecSpec VecProofs.
From Coq Require Import NArith ZifyBool ZifyN ZifyNat.

Section Proofs.
Context {A : Type} (dflt : A).

(* ---- invariant over all programs ---- *)
Lemma ilist_dims_shape n : forall (il : nlist A n) ds, ilist_dims n il = Some ds -> first_shape n il = ds.
Proof.
  induction n as [|n IH]; intros il ds H; cbn [ilist_dims first_shape] in *; [congruence|].
  destruct il as [|x il]; [discriminate|].
  destruct (ilist_dims n x) as [d'|] eqn:E; [|discriminate].
  simpl in H. inversion H; subst. rewrite (IH x d' E). reflexivity.
Qed.

Lemma ilist_good n (il : nlist A n) v :
  0 < n -> fits (first_shape n il) -> vec_ilist dflt n il [] = Ok v -> good v.
Proof.
  intros Hn Hf H. split.
  - eapply ilist_wf; [exact Hn| |exact H].
    destruct (ilist_dims n il) as [ds|] eqn:E; [|exact I].
    apply ilist_dims_shape in E. rewrite <- E. exact Hf.
  - unfold vec_ilist in H. 
    set (dims := match ilist_dims n il with Some d => d | None => repeat 0 n end) in *.
    assert (Hd : dims <> []).
    { unfold dims. destruct (ilist_dims n il) as [ds|] eqn:E.
      - apply ilist_dims_length in E. intros ->. simpl in E. lia.
      - destruct n; [lia|discriminate]. }
    apply obind_Ok in H. destruct H as (w & H1 & H2).
    unfold vec_resize_ in H1. apply obind_Ok in H1. destruct H1 as (l & _ & H1).
    inversion H1; subst w; clear H1. cbn [v_dims v_data] in H2.
    destruct (v_empty _); [inversion H2; subst; exact Hd|].
    apply obind_Ok in H2. destruct H2 as ([d i] & _ & H2). inversion H2; subst; exact Hd.
Qed.

Lemma put_good st k r st' : Forall (@good A) st -> (forall v, r = Ok v -> good v) ->
  put st k r = Ok st' -> Forall good st'.
Proof.
  intros Hs Hr H. unfold put in H. apply obind_Ok in H. destruct H as (v & Hv & H).
  apply oset_Ok in H. destruct H as [_ ->]. apply Forall_upd; [assumption|]. apply Hr; assumption.
Qed.

Lemma oget_good st k v : Forall (@good A) st -> oget st k = Ok v -> good v.
Proof.
  intros Hs H. apply oget_Ok in H. apply nth_error_In in H.
  rewrite Forall_forall in Hs. apply Hs; assumption.
Qed.

Lemma clear_good (v : vec A) : v_dims v <> [] -> good (vec_clear v).
Proof.
  intros H. unfold vec_clear, v_rank. split.
  - apply wf_default. destruct (v_dims v); [congruence|discriminate].
  - cbn [v_dims]. destruct (v_dims v); [congruence|discriminate].
Qed.

Lemma append_dims_ne N (t1 t2 v' : vec A) : v_dims t1 <> [] -> v_dims t2 <> [] ->
  append_dim dflt N t1 t2 = Ok v' -> v_dims v' <> [].
Proof.
  intros H1 H2 H. unfold append_dim in H.
  destruct (v_empty t1); [inversion H; subst; assumption|].
  destruct (v_empty t2); [inversion H; subst; assumption|].
  apply obind_Ok in H. destruct H as (n1 & _ & H). apply obind_Ok in H. destruct H as (n2 & _ & H).
  destruct (_ || _); [discriminate|].
  apply obind_Ok in H. destruct H as (u & _ & H). apply obind_Ok in H. destruct H as (r & Hr & H).
  apply obind_Ok in H. destruct H as (d1 & _ & H). apply obind_Ok in H. destruct H as (d2 & _ & H).
  inversion H; subst. cbn [v_dims]. unfold vec_resize_ in Hr. apply obind_Ok in Hr.
  destruct Hr as (l & _ & Hr). inversion Hr; subst. cbn [v_dims].
  intros C. apply (f_equal (@length nat)) in C. rewrite upd_length in C.
  destruct (v_dims t1); [congruence|discriminate].
Qed.

Lemma prepend_dims_ne N (t1 t2 v' : vec A) : v_dims t1 <> [] -> v_dims t2 <> [] ->
  prepend_dim dflt N t1 t2 = Ok v' -> v_dims v' <> [].
Proof.
  intros H1 H2 H. unfold prepend_dim in H.
  destruct (v_empty t1); [inversion H; subst; assumption|].
  destruct (v_empty t2); [inversion H; subst; assumption|].
  apply obind_Ok in H. destruct H as (n1 & _ & H). apply obind_Ok in H. destruct H as (n2 & _ & H).
  destruct (_ || _); [discriminate|].
  apply obind_Ok in H. destruct H as (u & _ & H). apply obind_Ok in H. destruct H as (r & Hr & H).
  apply obind_Ok in H. destruct H as (d1 & _ & H). apply obind_Ok in H. destruct H as (d2 & _ & H).
  inversion H; subst. cbn [v_dims]. unfold vec_resize_ in Hr. apply obind_Ok in Hr.
  destruct Hr as (l & _ & Hr). inversion Hr; subst. cbn [v_dims].
  intros C. apply (f_equal (@length nat)) in C. rewrite upd_length in C.
  destruct (v_dims t1); [congruence|discriminate].
Qed.

Lemma append1_ok (t1 t2 : vec A) d1 d2 : wf t1 -> wf t2 -> v_dims t1 = [d1] -> v_dims t2 = [d2] ->
  forall l, data_concat (v_data t1) (v_data t2) = Ok l ->
  d1 = length (v_data t1) /\ d2 = length (v_data t2) /\ nwrap (d1 + d2) = d1 + d2.
Proof.
  intros [W1 M1] [W2 M2] E1 E2 l H. rewrite E1 in W1. rewrite E2 in W2.
  unfold nprod in W1, W2; cbn [fold_right] in W1, W2. rewrite Nat.mul_1_r in W1, W2.
  split; [congruence|]. split; [congruence|]. apply nwrap_small.
  pose proof (two_max _ _ M1 M2). rewrite <- W1, <- W2. assumption.
Qed.

Lemma append1_good self (t1 t2 v : vec A) : wf t1 -> wf t2 -> append1 self t1 t2 = Ok v ->
  self = false /\ good v /\ v_data v = v_data t1 ++ v_data t2.
Proof.
  intros W1 W2 H. unfold append1 in H.
  destruct (v_dims t1) as [|d1 [|? ?]] eqn:E1; try discriminate.
  destruct (v_dims t2) as [|d2 [|? ?]] eqn:E2; try discriminate.
  destruct self; [discriminate|]. apply obind_Ok in H. destruct H as (l & Hl & H).
  destruct (append1_ok t1 t2 d1 d2 W1 W2 E1 E2 l Hl) as (X1 & X2 & X3).
  apply data_concat_Ok in Hl. destruct Hl as [-> Hl]. inversion H; subst v; clear H.
  split; [reflexivity|]. split; [|reflexivity].
  split; [|discriminate]. split; cbn [v_data v_dims]; [|assumption].
  rewrite X3, X1, X2, app_length. unfold nprod; simpl. lia.
Qed.

Lemma prepend1_good self (t1 t2 v : vec A) : wf t1 -> wf t2 -> prepend1 self t1 t2 = Ok v ->
  self = false /\ good v /\ v_data v = v_data t2 ++ v_data t1.
Proof.
  intros W1 W2 H. unfold prepend1 in H.
  destruct (v_dims t1) as [|d1 [|? ?]] eqn:E1; try discriminate.
  destruct (v_dims t2) as [|d2 [|? ?]] eqn:E2; try discriminate.
  destruct self; [discriminate|]. apply obind_Ok in H. destruct H as (l & Hl & H).
  destruct (append1_ok t2 t1 d2 d1 W2 W1 E2 E1 l Hl) as (X1 & X2 & X3).
  apply data_concat_Ok in Hl. destruct Hl as [-> Hl]. inversion H; subst v; clear H.
  split; [reflexivity|]. split; [|reflexivity].
  split; [|discriminate]. split; cbn [v_data v_dims]; [|assumption].
  rewrite (Nat.add_comm d1), X3, X1, X2, app_length. unfold nprod; simpl. lia.
Qed.

Lemma run_op_good st o st' : Forall (@good A) st -> op_safe o ->
  run_op dflt st o = Ok st' -> Forall good st'.
Proof.
  intros Hs Hsafe H. destruct o; cbn [run_op op_safe] in *.
  - eapply put_good; [exact Hs| |exact H]. intros v Hv. unfold vec_ctor in Hv.
    destruct Hsafe as [F Ne]. apply resize_wf in Hv; [|exact F]. destruct Hv as [W E].
    split; [assumption|]. rewrite E. exact Ne.
  - eapply put_good; [exact Hs| |exact H]. intros v Hv. destruct Hsafe. eapply ilist_good; eassumption.
  - eapply put_good; [exact Hs| |exact H]. intros v Hv. eapply oget_good; eassumption.
  - apply obind_Ok in H. destruct H as (v & Hv & H). apply obind_Ok in H. destruct H as (s1 & H1 & H).
    apply oset_Ok in H1, H. destruct H1 as [_ ->]. destruct H as [_ ->].
    pose proof (oget_good _ _ _ Hs Hv) as [W Ne].
    apply Forall_upd; [apply Forall_upd; [assumption|]|].
    + apply (clear_good v Ne).
    + cbn [fst vec_move_ctor]. split; assumption.
  - destruct Hsafe.
  - eapply put_good; [exact Hs| |exact H]. intros v Hv. apply obind_Ok in Hv. destruct Hv as (w & Hw & Hv).
    unfold vec_resize in Hv. destruct Hsafe as [F Ne].
    apply resize_wf in Hv; [|exact F]. destruct Hv as [W E]. split; [assumption|]. rewrite E. exact Ne.
  - eapply put_good; [exact Hs| |exact H]. intros v Hv. apply obind_Ok in Hv. destruct Hv as (w & Hw & Hv).
    inversion Hv; subst. apply clear_good. eapply oget_good in Hw; [|exact Hs]. apply Hw.
  - eapply put_good; [exact Hs| |exact H]. intros v Hv. apply obind_Ok in Hv. destruct Hv as (w & Hw & Hv).
    eapply oget_good in Hw; [|exact Hs]. destruct Hw as [W Ne].
    pose proof (push_scalar_wf _ _ _ W Hv) as [W' _]. split; [assumption|].
    unfold push_back_scalar in Hv. destruct (v_dims w) as [|d [|? ?]]; try discriminate.
    apply obind_Ok in Hv. destruct Hv as (l & _ & Hv). inversion Hv; discriminate.
  - eapply put_good; [exact Hs| |exact H]. intros v Hv. apply obind_Ok in Hv. destruct Hv as (w & Hw & Hv).
    apply obind_Ok in Hv. destruct Hv as (t & Ht & Hv).
    eapply oget_good in Hw; [|exact Hs]. destruct Hw as [W Ne].
    eapply oget_good in Ht; [|exact Hs]. destruct Ht as [Wt Nt].
    split; [exact (push_vec_wf _ _ _ W Wt Hv)|].
    unfold push_back_vec in Hv. destruct (v_dims w) as [|d ds]; [discriminate|].
    destruct (v_empty w); [inversion Hv; discriminate|].
    apply obind_Ok in Hv. destruct Hv as (? & _ & Hv). apply obind_Ok in Hv. destruct Hv as (? & _ & Hv).
    inversion Hv; discriminate.
  - eapply put_good; [exact Hs| |exact H]. intros v Hv. apply obind_Ok in Hv. destruct Hv as (w & Hw & Hv).
    eapply oget_good in Hw; [|exact Hs]. destruct Hw as [[W M] Ne]. destruct Hsafe as [F Ned].
    unfold reform in Hv. apply obind_Ok in Hv. destruct Hv as (? & Hc & Hv). apply check_Ok in Hc.
    rewrite nwrap_small in Hc by exact F. inversion Hv; subst. split; [|exact Ned].
    split; cbn [v_data v_dims]; [|assumption]. unfold v_size in Hc. lia.
  - eapply put_good; [exact Hs| |exact H]. intros v Hv. apply obind_Ok in Hv. destruct Hv as (w & Hw & Hv).
    eapply oget_good in Hw; [|exact Hs]. destruct Hw as [[W M] Ne]. inversion Hv; subst.
    split; [|discriminate]. split; cbn [v_data v_dims flatten]; [|assumption].
    unfold v_size, nprod; simpl. lia.
  - eapply put_good; [exact Hs| |exact H]. intros v Hv. apply obind_Ok in Hv. destruct Hv as (w & Hw & Hv).
    apply obind_Ok in Hv. destruct Hv as (t & Ht & Hv).
    eapply oget_good in Hw; [|exact Hs]. eapply oget_good in Ht; [|exact Hs].
    eapply append1_good; [apply Hw|apply Ht|exact Hv].
  - eapply put_good; [exact Hs| |exact H]. intros v Hv. apply obind_Ok in Hv. destruct Hv as (w & Hw & Hv).
    apply obind_Ok in Hv. destruct Hv as (t & Ht & Hv).
    eapply oget_good in Hw; [|exact Hs]. eapply oget_good in Ht; [|exact Hs].
    eapply prepend1_good; [apply Hw|apply Ht|exact Hv].
  - eapply put_good; [exact Hs| |exact H]. intros v Hv. apply obind_Ok in Hv. destruct Hv as (w & Hw & Hv).
    apply obind_Ok in Hv. destruct Hv as (t & Ht & Hv).
    eapply oget_good in Hw; [|exact Hs]. eapply oget_good in Ht; [|exact Hs].
    unfold self_append in Hv. destruct (_ && _); [discriminate|].
    split; [eapply append_wf; [apply Hw|apply Ht|exact Hv]|].
    eapply append_dims_ne; [apply Hw|apply Ht|exact Hv].
  - eapply put_good; [exact Hs| |exact H]. intros v Hv. apply obind_Ok in Hv. destruct Hv as (w & Hw & Hv).
    apply obind_Ok in Hv. destruct Hv as (t & Ht & Hv).
    eapply oget_good in Hw; [|exact Hs]. eapply oget_good in Ht; [|exact Hs].
    unfold self_append in Hv. destruct (_ && _); [discriminate|].
    split; [eapply prepend_wf; [apply Hw|apply Ht|exact Hv]|].
    eapply prepend_dims_ne; [apply Hw|apply Ht|exact Hv].
  - eapply put_good; [exact Hs| |exact H]. intros v Hv. apply obind_Ok in Hv. destruct Hv as (w & Hw & Hv).
    eapply oget_good in Hw; [|exact Hs]. destruct Hw as [W Ne].
    split; [eapply remove_wf; eassumption|].
    unfold inplace_remove in Hv. destruct (v_dims w); [congruence|].
    apply obind_Ok in Hv. destruct Hv as (? & _ & Hv). inversion Hv; discriminate.
  - eapply put_good; [exact Hs| |exact H]. intros v Hv. apply obind_Ok in Hv. destruct Hv as (w & Hw & Hv).
    eapply oget_good in Hw; [|exact Hs]. destruct Hw as [W Ne].
    destruct (v_dims w) as [|d0 [|d1 [|? ?]]] eqn:E;
      try (unfold transpose in Hv; rewrite E in Hv; discriminate).
    destruct (transpose_spec w d0 d1 W E) as (r & R1 & R2 & R3 & _).
    rewrite R1 in Hv. inversion Hv; subst. split; [assumption|]. rewrite R2. discriminate.
Qed.

Lemma run_ops_good : forall p st st', Forall (@good A) st -> Forall op_safe p ->
  run_ops dflt st p = Ok st' -> Forall good st'.
Proof.
  induction p as [|o p IH]; intros st st' Hs Hp H; cbn in H.
  - inversion H; subst; assumption.
  - inversion Hp; subst. apply obind_Ok in H. destruct H as (s1 & H1 & H).
    eapply IH; [|eassumption|exact H]. eapply run_op_good; eassumption.
Qed.

(* ---- push_back of slices ---- *)
Lemma push_vec_slices (v t v' : vec A) d ds :
  wf v -> wf t -> v_dims v = d :: ds -> v_data v <> [] -> push_back_vec v t = Ok v' ->
  v_dims t = ds /\ v_dims v' = (d + 1) :: ds /\
  (forall i ids, i < d -> in_range ds ids -> elem v' (i :: ids) = elem v (i :: ids)) /\
  (forall ids, in_range ds ids -> elem v' (d :: ids) = elem t ids).
Proof.
  intros Wv Wt E Ne H. rewrite (push_vec_nonempty v t d ds E Ne) in H.
  apply obind_Ok in H. destruct H as (u & Hc & H). apply check_Ok in Hc.
  apply list_eqb_dec_true in Hc. apply obind_Ok in H. destruct H as (l & Hl & H).
  apply data_concat_Ok in Hl. destruct Hl as [-> Hl]. inversion H; subst v'; clear H.
  cbn [v_dims]. destruct (wf_dim_bound v d ds Wv E Ne) as (B1 & B2 & B3 & B4).
  destruct Wv as [Wv Mv]. destruct Wt as [Wt Mt].
  assert (Hw : nwrap (d + 1) = d + 1).
  { apply nwrap_small. unfold max_elems, two64N in *. lia. }
  split; [congruence|]. split; [rewrite Hw; reflexivity|].
  rewrite Hw. unfold elem; cbn [v_data v_dims]. split.
  - intros i ids Hi Hr. rewrite E.
    rewrite !row_major_cons by (apply in_range_length; assumption).
    pose proof (row_major_bound _ _ Hr). rewrite nth_error_app1; [reflexivity|]. nia.
  - intros ids Hr. rewrite row_major_cons by (apply in_range_length; assumption).
    rewrite nth_error_app2 by lia. rewrite Hc in *. f_equal. lia.
Qed.

Lemma push_vec_ok (v t : vec A) d ds :
  wf v -> v_dims v = d :: ds -> v_data v <> [] -> v_dims t = ds ->
  (N.of_nat (v_size v + v_size t) <= max_elems)%N ->
  exists v', push_back_vec v t = Ok v'.
Proof.
  intros W E Ne Et Hm. rewrite (push_vec_nonempty v t d ds E Ne).
  destruct (list_eq_dec Nat.eq_dec ds (v_dims t)); [|congruence]. cbn [check obind].
  unfold data_concat, v_size in *. destruct (N.leb_spec (N.of_nat (length (v_data v) + length (v_data t))) max_elems); [|lia].
  cbn [obind]. eauto.
Qed.

Lemma push_scalar_ok (v : vec A) x d : wf v -> v_dims v = [d] -> (N.of_nat d < max_elems)%N ->
  push_back_scalar v x = Ok (mk_vec [d + 1] (v_data v ++ [x])).
Proof.
  intros [L _] D H. unfold push_back_scalar, data_concat. rewrite D in *.
  change (nprod [d]) with (d * 1) in L. cbn [length].
  destruct (N.leb_spec (N.of_nat (length (v_data v) + 1)) max_elems) as [C|C]; [|lia]. cbn [obind].
  rewrite nwrap_small; [reflexivity|]. apply max_lt_two64. lia.
Qed.

Lemma push_vec_reject (v t : vec A) d ds :
  v_dims v = d :: ds -> v_data v <> [] -> v_dims t <> ds -> push_back_vec v t = CheckFail.
Proof.
  intros E Ne Et. rewrite (push_vec_nonempty v t d ds E Ne).
  destruct (list_eq_dec Nat.eq_dec ds (v_dims t)); [congruence|]. reflexivity.
Qed.

(* 2^32 x 2^32 : the number of elements wraps to 0 *)
Lemma two32 : exists d, N.of_nat d = 4294967296%N.
Proof. exists (N.to_nat 4294967296). apply N2Nat.id. Qed.

Lemma two32_wrap d : N.of_nat d = 4294967296%N -> nwrap (nprod [d; d]) = 0 /\ 0 < d * d.
Proof.
  intros H. split; [|nia].
  unfold nwrap. rewrite !nprod_cons. unfold nprod; cbn [fold_right].
  rewrite Nat.mul_1_r, Nat2N.inj_mul, H. reflexivity.
Qed.

Lemma overflow_ctor : exists d, vec_ctor dflt [d; d] = Ok (mk_vec [d; d] []) /\ 0 < d * d.
Proof.
  destruct two32 as [d H]. exists d. apply two32_wrap in H. destruct H as [H1 H2]. split; [|assumption].
  unfold vec_ctor, vec_resize_; cbn [v_dims v_data]. rewrite H1. reflexivity.
Qed.

Lemma overflow_reform (v : vec A) : v_data v = [] ->
  exists d, reform v [d; d] = Ok (mk_vec [d; d] []) /\ 0 < d * d.
Proof.
  intros E. destruct two32 as [d H]. exists d. apply two32_wrap in H. destruct H as [H1 H2]. split; [|assumption].
  unfold reform, v_size. rewrite E, H1. reflexivity.
Qed.

End Proofs.

(* ---- multi-dimensional subscripts ---- *)
Section Multi.

Lemma up_list (b n : Z) l : enumerates_up b n l -> (0 <= b)%Z -> (0 <= n)%Z ->
  l = map Z.of_nat (seq (Z.to_nat b) (Z.to_nat n)).
Proof.
  intros [H1 H2] Hb Hn. apply list_eq_nth_error. intros i.
  rewrite nth_error_map, nth_error_seq.
  destruct (Nat.ltb_spec i (Z.to_nat n)).
  - rewrite H2 by lia. simpl. f_equal. lia.
  - simpl. apply nth_error_None. lia.
Qed.

Lemma max_ptrs_63 : (max_ptrs < two63)%Z. Proof. reflexivity. Qed.

Lemma rng_loop_valid d r : sub_valid d (SRange r) ->
  rng_loop r (Z.of_nat d) = Ok (map Z.of_nat (sub_indices d (SRange r))).
Proof.
  intros [Hd Hv]. pose proof max_ptrs_63. unfold rng_loop. cbn [sub_indices].
  destruct r as [|b|a|a b]; cbn [check_bounds obind].
  - destruct (for_range_n_up (Z.of_nat d)) as (l & H1 & H2); [lia|]. rewrite H1. f_equal.
    apply up_list in H2; try lia. rewrite H2. do 2 f_equal. lia.
  - destruct (Z.ltb_spec b (Z.of_nat d)); [|lia]. cbn [check obind].
    rewrite wrap64_small by (unfold two64, two63 in *; lia).
    destruct (for_range_n_up (b + 1)) as (l & H1 & H2); [lia|]. rewrite H1. f_equal.
    apply up_list in H2; try lia. exact H2.
  - destruct (Z.ltb_spec a (Z.of_nat d)); [|lia]. cbn [check obind].
    destruct (for_range_up a (Z.of_nat d)) as (l & H1 & H2); [lia|lia|]. rewrite H1. f_equal.
    apply up_list in H2; try lia. rewrite H2. do 2 f_equal. lia.
  - destruct Hv as (H1 & H2 & H3).
    destruct (Z.ltb_spec b (Z.of_nat d)); [|lia]. destruct (Z.ltb_spec a (Z.of_nat d)); [|lia].
    cbn [check obind]. rewrite wrap64_small by (unfold two64, two63 in *; lia).
    destruct (for_range_up a (b + 1)) as (l & E1 & E2); [lia|lia|]. rewrite E1. f_equal.
    apply up_list in E2; try lia. exact E2.
Qed.

Lemma omapl_map (B C : Type) (f : B -> outcome C) (g : B -> C) l :
  (forall x, In x l -> f x = Ok (g x)) -> omapl f l = Ok (map g l).
Proof.
  induction l as [|x l IH]; intros H; cbn [omapl map]; [reflexivity|].
  rewrite H by (simpl; auto). cbn [obind]. rewrite IH by (intros; apply H; simpl; auto). reflexivity.
Qed.

Lemma omapl_map_arg (B C D : Type) (f : C -> outcome D) (h : B -> C) l :
  omapl f (map h l) = omapl (fun x => f (h x)) l.
Proof. induction l as [|x l IH]; cbn [omapl map]; [reflexivity|]. rewrite IH. reflexivity. Qed.

Lemma make_indices_ok : forall dims subs, Forall2 sub_valid dims subs -> forall ivx,
  make_indices dims subs ivx = Ok (positions dims (selection dims subs) ivx).
Proof.
  intros dims subs H; induction H as [|d s ds ss Hv H IH]; intros ivx; [reflexivity|].
  cbn [make_indices selection positions]. destruct s as [i|r|l].
  - destruct Hv as [_ Hv]. unfold to_idx_nat, check. destruct (Nat.ltb_spec i d); [|lia].
    cbn [obind sub_indices flat_map]. rewrite IH, app_nil_r. reflexivity.
  - rewrite rng_loop_valid by assumption. cbn [obind]. rewrite omapl_map_arg.
    rewrite (omapl_map _ _ _ (fun j => positions ds (selection ds ss) (ivx + j * nprod ds))).
    + cbn [obind]. rewrite flat_map_concat_map. reflexivity.
    + intros x _. rewrite Nat2Z.id. apply IH.
  - destruct Hv as [_ Hv]. cbn [sub_indices].
    rewrite (omapl_map _ _ _ (fun j => positions ds (selection ds ss) (ivx + j * nprod ds))).
    + cbn [obind]. rewrite flat_map_concat_map. reflexivity.
    + intros x Hx. rewrite Forall_forall in Hv. specialize (Hv x Hx).
      unfold to_idx_nat, check. destruct (Nat.ltb_spec x d); [|lia]. cbn [obind]. apply IH.
Qed.

Lemma selection_length : forall dims subs, Forall2 sub_valid dims subs ->
  length (selection dims subs) = length dims.
Proof. intros dims subs H; induction H; simpl; auto. Qed.

Lemma sub_size d r : sub_valid d (SRange r) ->
  Z.to_N (range_size r (Z.of_nat d)) = N.of_nat (length (sub_indices d (SRange r))).
Proof.
  intros [Hd Hv]. pose proof max_ptrs_63. cbn [sub_indices].
  destruct r as [|b|a|a b]; cbn [range_size]; rewrite seq_length.
  - lia.
  - rewrite wrap64_small by (unfold two64, two63 in *; lia). lia.
  - rewrite wrap64_small by (unfold two64, two63 in *; lia). lia.
  - rewrite (wrap64_small (b + 1)) by (unfold two64, two63 in *; lia).
    rewrite wrap64_small by (unfold two64, two63 in *; lia). lia.
Qed.

Lemma view_dims_ok : forall dims subs, Forall2 sub_valid dims subs ->
  view_dims dims subs = map N.of_nat (sel_extents dims subs).
Proof.
  intros dims subs H; induction H as [|d s ds ss Hv H IH]; [reflexivity|].
  destruct s as [i|r|l]; cbn [view_dims sel_extents map]; rewrite IH.
  - reflexivity.
  - rewrite sub_size by assumption. reflexivity.
  - reflexivity.
Qed.

Lemma Nprod_of_nat l : fold_right N.mul 1%N (map N.of_nat l) = N.of_nat (nprod l).
Proof. induction l as [|x l IH]; cbn [map fold_right]; [reflexivity|]. rewrite IH, nprod_cons. lia. Qed.

Lemma sel_extents_prod : forall dims subs, Forall2 sub_valid dims subs ->
  nprod (sel_extents dims subs) = nprod (map (@length nat) (selection dims subs)).
Proof.
  intros dims subs H; induction H as [|d s ds ss Hv H IH]; [reflexivity|].
  destruct s as [i|r|l]; cbn [sel_extents selection map]; rewrite ?nprod_cons, IH; try reflexivity.
  cbn [sub_indices length]. lia.
Qed.

Lemma multi_access_ok dims subs :
  Forall2 sub_valid dims subs -> (N.of_nat (nprod (sel_extents dims subs)) <= max_elems)%N ->
  multi_access dims subs =
    Ok (map N.of_nat (sel_extents dims subs),
        map (row_major dims) (cart (selection dims subs))).
Proof.
  intros H Hm. unfold multi_access. rewrite view_dims_ok by assumption.
  unfold Nprod64. rewrite Nprod_of_nat.
  rewrite N.mod_small by (apply max_lt_two64; assumption).
  destruct (N.leb_spec (N.of_nat (nprod (sel_extents dims subs))) max_elems); [|lia]. cbn [obind].
  rewrite make_indices_ok by assumption. cbn [obind].
  rewrite positions_cart by (apply selection_length; assumption).
  rewrite map_length, cart_length, <- sel_extents_prod by assumption.
  rewrite N.eqb_refl. reflexivity.
Qed.

(* every position is inside the storage, whatever the subscripts *)
Lemma for_range_down_list b e l : (0 <= e)%Z -> (e < b)%Z -> (b < two63)%Z -> for_range b e = Ok l ->
  forall x, In x l -> (e < x <= b)%Z.
Proof.
  intros H1 H2 H3 H x Hx. destruct (for_range_down b e H1 H2 H3) as (l' & E & [L D]).
  rewrite E in H. inversion H; subst l'. apply In_nth_error in Hx. destruct Hx as [k Hk].
  assert (k < length l) by (apply nth_error_Some; congruence).
  rewrite D in Hk by assumption. inversion Hk. lia.
Qed.

Lemma for_range_up_list b e l : (0 <= b <= e)%Z -> (e < two63)%Z -> for_range b e = Ok l ->
  forall x, In x l -> (b <= x < e)%Z.
Proof.
  intros H1 H3 H x Hx. destruct (for_range_up b e H1 H3) as (l' & E & [L D]).
  rewrite E in H. inversion H; subst l'. apply In_nth_error in Hx. destruct Hx as [k Hk].
  assert (k < length l) by (apply nth_error_Some; congruence).
  rewrite D in Hk by assumption. inversion Hk. lia.
Qed.

Lemma rng_loop_safe d r l : (Z.of_nat d <= max_ptrs)%Z -> sub_u64 (SRange r) ->
  rng_loop r (Z.of_nat d) = Ok l -> forall x, In x l -> Z.to_nat x < d.
Proof.
  intros Hd Hu H x Hx. pose proof max_ptrs_63 as M. unfold rng_loop in H.
  apply obind_Ok in H. destruct H as (u & Hc & H).
  destruct r as [|b|a|a b]; cbn [check_bounds sub_u64] in *; unfold is_u64 in *.
  - pose proof (for_range_up_list 0 (Z.of_nat d) l ltac:(lia) ltac:(lia) H x Hx). lia.
  - apply check_Ok in Hc. rewrite wrap64_small in H by (unfold two64, two63 in *; lia).
    pose proof (for_range_up_list 0 (b + 1) l ltac:(lia) ltac:(lia) H x Hx). lia.
  - apply check_Ok in Hc.
    pose proof (for_range_up_list a (Z.of_nat d) l ltac:(lia) ltac:(lia) H x Hx). lia.
  - apply obind_Ok in Hc. destruct Hc as (? & Hb & Ha). apply check_Ok in Hb, Ha.
    rewrite wrap64_small in H by (unfold two64, two63 in *; lia).
    destruct (Z_le_gt_dec a (b + 1)).
    + pose proof (for_range_up_list a (b + 1) l ltac:(lia) ltac:(lia) H x Hx). lia.
    + pose proof (for_range_down_list a (b + 1) l ltac:(lia) ltac:(lia) ltac:(lia) H x Hx). lia.
Qed.

Lemma omapl_Ok_inv (B C : Type) (f : B -> outcome C) : forall l r, omapl f l = Ok r ->
  Forall2 (fun x y => f x = Ok y) l r.
Proof.
  induction l as [|x l IH]; intros r H; cbn [omapl] in H.
  - inversion H; constructor.
  - apply obind_Ok in H. destruct H as (y & Hy & H). apply obind_Ok in H. destruct H as (r' & Hr & H).
    inversion H; subst. constructor; auto.
Qed.

Lemma to_idx_nat_Ok d i j : to_idx_nat d i = Ok j -> j = i /\ i < d.
Proof.
  unfold to_idx_nat, check. destruct (Nat.ltb_spec i d); simpl; intros H'; inversion H'; subst; auto.
Qed.

Lemma make_indices_safe : forall dims subs ivx l,
  Forall (fun d => (Z.of_nat d <= max_ptrs)%Z) dims -> Forall sub_u64 subs ->
  make_indices dims subs ivx = Ok l -> Forall (fun p => p < ivx + nprod dims) l.
Proof.
  induction dims as [|d ds IH]; intros [|s ss] ivx l Hd Hs H; cbn [make_indices] in H; try discriminate.
  - inversion H; subst. constructor; [unfold nprod; simpl; lia|constructor].
  - inversion Hd; inversion Hs; subst. rewrite nprod_cons.
    assert (G : forall j l', j < d -> make_indices ds ss (ivx + j * nprod ds) = Ok l' ->
                Forall (fun p => p < ivx + d * nprod ds) l').
    { intros j l' Hj E. apply IH in E; try assumption.
      eapply Forall_impl; [|exact E]. intros p Hp; simpl in Hp. nia. }
    destruct s as [i|r|ids].
    + apply obind_Ok in H. destruct H as (j & Hj & H). apply to_idx_nat_Ok in Hj.
      destruct Hj as [-> Hj]. eapply G; eassumption.
    + apply obind_Ok in H. destruct H as (xs & Hx & H). apply obind_Ok in H. destruct H as (ll & Hl & H).
      inversion H; subst l; clear H. apply omapl_Ok_inv in Hl.
      pose proof (rng_loop_safe d r xs ltac:(assumption) ltac:(assumption) Hx) as Hsafe.
      clear Hx. induction Hl as [|x y xs ll Hxy Hl IHl]; cbn [concat]; [constructor|].
      apply Forall_app. split.
      * eapply G; [|exact Hxy]. apply Hsafe; simpl; auto.
      * apply IHl. intros; apply Hsafe; simpl; auto.
    + apply obind_Ok in H. destruct H as (ll & Hl & H).
      inversion H; subst l; clear H. apply omapl_Ok_inv in Hl.
      induction Hl as [|x y xs ll Hxy Hl IHl]; cbn [concat]; [constructor|].
      apply Forall_app. split; [|apply IHl; inversion Hs; subst; constructor; [exact I|assumption]].
      apply obind_Ok in Hxy. destruct Hxy as (j & Hj & Hxy). apply to_idx_nat_Ok in Hj.
      destruct Hj as [-> Hj]. eapply G; eassumption.
Qed.

(* subscripts outside their dimension are refused *)
Lemma rng_loop_outside d r : sub_outside d (SRange r) -> rng_loop r (Z.of_nat d) = CheckFail.
Proof.
  unfold rng_loop, check. destruct r as [|b|a|a b]; cbn [sub_outside check_bounds]; intros H; [destruct H|..]; unfold check.
  - destruct (Z.ltb_spec b (Z.of_nat d)); [lia|reflexivity].
  - destruct (Z.ltb_spec a (Z.of_nat d)); [lia|reflexivity].
  - destruct (Z.ltb_spec b (Z.of_nat d)); cbn [obind]; [|reflexivity].
    destruct (Z.ltb_spec a (Z.of_nat d)); [lia|reflexivity].
Qed.

Lemma omapl_two (B C : Type) (f : B -> outcome C) l :
  (forall x, In x l -> f x = CheckFail \/ exists y, f x = Ok y) ->
  omapl f l = CheckFail \/ exists r, omapl f l = Ok r.
Proof.
  induction l as [|x l IH]; intros H; cbn [omapl]; [eauto|].
  destruct (H x (or_introl eq_refl)) as [->|(y & ->)]; [left; reflexivity|]. cbn [obind].
  destruct IH as [->|(r & ->)]; [intros; apply H; simpl; auto| |]; cbn [obind]; eauto.
Qed.

Lemma make_indices_two : forall dims subs,
  Forall2 (fun d s => sub_valid d s \/ sub_outside d s) dims subs -> forall ivx,
  make_indices dims subs ivx = CheckFail \/ exists l, make_indices dims subs ivx = Ok l.
Proof.
  intros dims subs H; induction H as [|d s ds ss Hv H IH]; intros ivx; cbn [make_indices]; [eauto|].
  destruct s as [i|r|l].
  - unfold to_idx_nat, check. destruct (i <? d); cbn [obind]; [apply IH|auto].
  - destruct Hv as [Hv|Hv].
    + rewrite rng_loop_valid by assumption. cbn [obind].
      destruct (omapl_two _ _ (fun j => make_indices ds ss (ivx + Z.to_nat j * nprod ds))
                (map Z.of_nat (sub_indices d (SRange r)))) as [E|(x & E)]; [intros; apply IH|..];
        rewrite E; cbn [obind]; eauto.
    + rewrite rng_loop_outside by assumption. auto.
  - destruct (omapl_two _ _ (fun i => j <- to_idx_nat d i ;; make_indices ds ss (ivx + j * nprod ds)) l)
      as [E|(x & E)].
    + intros i _. unfold to_idx_nat, check. destruct (i <? d); cbn [obind]; [apply IH|auto].
    + rewrite E; auto.
    + rewrite E; cbn [obind]; eauto.
Qed.

Lemma make_indices_accept : forall dims subs,
  Forall2 (fun d s => (sub_valid d s \/ sub_outside d s) /\ sub_nonempty d s) dims subs ->
  forall ivx l, make_indices dims subs ivx = Ok l ->
  Forall2 (fun d s => ~ sub_outside d s) dims subs.
Proof.
  intros dims subs H; induction H as [|d s ds ss [Hv Hn] H IH]; intros ivx l E; [constructor|].
  cbn [make_indices] in E. destruct s as [i|r|ids].
  - apply obind_Ok in E. destruct E as (j & Hj & E). apply to_idx_nat_Ok in Hj. destruct Hj as [-> Hj].
    constructor; [simpl; lia|eapply IH; exact E].
  - destruct Hv as [Hv|Hv]; [|rewrite rng_loop_outside in E by assumption; discriminate].
    rewrite rng_loop_valid in E by assumption. cbn [obind] in E. rewrite omapl_map_arg in E.
    apply obind_Ok in E. destruct E as (ll & Hl & E). apply omapl_Ok_inv in Hl. constructor.
    + destruct Hv as [_ Hv]. destruct r; simpl in *; lia.
    + inversion Hl as [Z|x y xs ys Hxy Hrest Ex]; [|eapply IH; exact Hxy].
      exfalso. destruct Hv as [_ Hv]. symmetry in Z. apply (f_equal (@length nat)) in Z.
      cbn [sub_indices] in Z. destruct r; rewrite seq_length in Z; simpl in *; lia.
  - apply obind_Ok in E. destruct E as (ll & Hl & E). apply omapl_Ok_inv in Hl. constructor.
    + simpl. intros C. apply Exists_exists in C. destruct C as (i & Hi & Hd).
      clear E IH H Hv Hn. induction Hl as [|x y xs ys Hxy Hrest IHl]; [destruct Hi|].
      destruct Hi as [<-|Hi]; [|auto]. apply obind_Ok in Hxy. destruct Hxy as (j & Hj & _).
      apply to_idx_nat_Ok in Hj. lia.
    + inversion Hl as [Z|x y xs ys Hxy Hrest Ex]; subst; [simpl in Hn; congruence|].
      apply obind_Ok in Hxy. destruct Hxy as (j & Hj & Hxy). eapply IH; exact Hxy.
Qed.

Lemma multi_access_reject dims subs :
  Forall2 (fun d s => (sub_valid d s \/ sub_outside d s) /\ sub_nonempty d s) dims subs ->
  ~ Forall2 (fun d s => ~ sub_outside d s) dims subs ->
  multi_access dims subs = CheckFail \/ multi_access dims subs = Throws.
Proof.
  intros H Hn. unfold multi_access. destruct (N.leb _ max_elems); cbn [obind]; [left|right; reflexivity].
  destruct (make_indices_two dims subs) with (ivx := 0) as [E|(l & E)].
  - clear Hn. induction H; constructor; tauto.
  - rewrite E. reflexivity.
  - exfalso. apply Hn. eapply make_indices_accept; eassumption.
Qed.

Lemma multi_access_safe dims subs vd l :
  Forall (fun d => (Z.of_nat d <= max_ptrs)%Z) dims -> Forall sub_u64 subs ->
  multi_access dims subs = Ok (vd, l) -> Forall (fun p => p < nprod dims) l.
Proof.
  intros Hd Hs H. unfold multi_access in H. apply obind_Ok in H. destruct H as (u & _ & H).
  apply obind_Ok in H. destruct H as (l' & Hl & H).
  destruct (N.eqb _ _); [|discriminate]. inversion H; subst.
  apply make_indices_safe in Hl; assumption.
Qed.

End Multi.
