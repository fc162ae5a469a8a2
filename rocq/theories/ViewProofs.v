From Verif Require Import Base IndexModel IndexSpec IndexProofs VecModel VecSpec VecProofs VecProofs2 ViewModel ViewSpec.
From Coq Require Import NArith ZifyBool.

Section Proofs.
Context {A : Type}.
Implicit Types (st : store A) (f : A -> A -> A).

(* ---- list level ---- *)
Definition comb1 (f : A -> A -> A) (d : list A) (i : nat) (x : A) : list A :=
  match nth_error d i with Some y => upd d i (f y x) | None => d end.
Definition comb f (d : list A) (a : list nat) (vals : list A) : list A :=
  fold_left (fun d '(i, x) => comb1 f d i x) (combine a vals) d.

Lemma comb1_length f d i x : length (comb1 f d i x) = length d.
Proof. unfold comb1. destruct (nth_error d i); [apply upd_length|reflexivity]. Qed.

Lemma comb1_nth f d i x j :
  nth_error (comb1 f d i x) j =
  if i =? j then option_map (fun y => f y x) (nth_error d j) else nth_error d j.
Proof.
  unfold comb1. destruct (Nat.eqb_spec i j) as [->|Hn].
  - destruct (nth_error d j) as [y|] eqn:E; simpl; [|assumption].
    apply nth_error_upd_same. apply nth_error_Some. congruence.
  - destruct (nth_error d i); [|reflexivity]. apply nth_error_upd_other. congruence.
Qed.

Lemma comb_spec f : forall a vals d, combined f d a vals (comb f d a vals).
Proof.
  induction a as [|i a IH]; intros vals d.
  - split; [reflexivity|]. intros j. unfold comb, paired; simpl. destruct (nth_error d j); reflexivity.
  - destruct vals as [|x vals].
    + split; [reflexivity|]. intros j. unfold comb, paired; simpl. destruct (nth_error d j); reflexivity.
    + unfold comb. cbn [combine fold_left]. destruct (IH vals (comb1 f d i x)) as [L N].
      split; [rewrite comb1_length in L; exact L|]. intros j. unfold comb in N. rewrite N, comb1_nth.
      unfold paired. cbn [combine filter]. destruct (Nat.eqb_spec i j) as [->|Hn].
      * cbn [map snd fold_left]. destruct (nth_error d j); reflexivity.
      * reflexivity.
Qed.

Lemma last_opt_cons (x : A) l : last_opt (x :: l) = match last_opt l with Some y => Some y | None => Some x end.
Proof.
  unfold last_opt. simpl. destruct (rev l) as [|y r] eqn:E; [reflexivity|]. reflexivity.
Qed.

Lemma fold_take : forall l (y : A),
  fold_left take_src l y = match last_opt l with Some x => x | None => y end.
Proof.
  induction l as [|x l IH]; intros y; [reflexivity|]. cbn [fold_left]. rewrite IH, last_opt_cons.
  destruct (last_opt l); reflexivity.
Qed.

Lemma combined_stored (d : list A) a vals r : combined take_src d a vals r -> stored d a vals r.
Proof.
  intros [L N]. split; [assumption|]. intros i. rewrite N.
  destruct (nth_error d i) as [y|]; simpl; [|reflexivity]. rewrite fold_take.
  destruct (last_opt _); reflexivity.
Qed.

Lemma pick_some (l : list A) ids : Forall (fun i => i < length l) ids <-> exists r, pick l ids = Some r.
Proof.
  induction ids as [|i ids IH]; simpl; split; intros H.
  - eauto.
  - constructor.
  - inversion H; subst. destruct (nth_error l i) eqn:E; [|apply nth_error_None in E; lia].
    destruct IH as [IH _]. destruct (IH H3) as [r ->]. eauto.
  - destruct H as [r H]. destruct (nth_error l i) eqn:E; [|discriminate].
    destruct (pick l ids) as [r'|] eqn:P; [|discriminate]. constructor.
    + apply nth_error_Some. congruence.
    + apply IH. eauto.
Qed.

Lemma pick_length (l : list A) ids r : pick l ids = Some r -> length r = length ids.
Proof.
  revert r; induction ids as [|i ids IH]; simpl; intros r H; [inversion H; reflexivity|].
  destruct (nth_error l i); [|discriminate]. destruct (pick l ids); [|discriminate].
  inversion H; subst. simpl. rewrite (IH l0); reflexivity.
Qed.

Lemma pick_all (l : list A) : pick l (seq 0 (length l)) = Some l.
Proof.
  assert (G : forall l2 l1 : list A, pick (l1 ++ l2) (seq (length l1) (length l2)) = Some l2).
  { induction l2 as [|x l2 IH]; intros l1; [reflexivity|]. cbn [length seq pick].
    rewrite nth_error_mid. specialize (IH (l1 ++ [x])). rewrite <- app_assoc in IH. cbn [app] in IH.
    rewrite app_length in IH. cbn [length] in IH. replace (S (length l1)) with (length l1 + 1) by lia.
    rewrite IH. reflexivity. }
  apply (G l []).
Qed.

(* ---- store level ---- *)
Definition set_data (st : store A) (k : nat) (v : vec A) (d : list A) : store A :=
  upd st k (mk_vec (v_dims v) d).

Lemma upd_upd (B : Type) (l : list B) k x y : upd (upd l k x) k y = upd l k y.
Proof. revert k; induction l as [|b l IH]; intros [|k]; simpl; try reflexivity. rewrite IH; reflexivity. Qed.
Lemma upd_same (B : Type) (l : list B) k x : nth_error l k = Some x -> upd l k x = l.
Proof.
  revert k; induction l as [|b l IH]; intros [|k] H; simpl in *; try discriminate.
  - congruence.
  - rewrite IH by assumption. reflexivity.
Qed.

Lemma set_data_get st k v d : nth_error st k = Some v ->
  nth_error (set_data st k v d) k = Some (mk_vec (v_dims v) d).
Proof. intros H. apply nth_error_upd_same. apply nth_error_Some. congruence. Qed.

Lemma set_data_set st k v d d' :
  set_data (set_data st k v d) k (mk_vec (v_dims v) d) d' = set_data st k v d'.
Proof. unfold set_data. cbn [v_dims]. apply upd_upd. Qed.

Lemma read_ok st k v i x : nth_error st k = Some v -> nth_error (v_data v) i = Some x -> read st (k, i) = Ok x.
Proof. intros H1 H2. unfold read, oget; cbn [fst snd]. rewrite H1. cbn [obind]. rewrite H2. reflexivity. Qed.

Lemma step_ok f st k v i x : nth_error st k = Some v -> i < length (v_data v) ->
  (y <- read st (k, i) ;; write st (k, i) (f y x)) = Ok (set_data st k v (comb1 f (v_data v) i x)).
Proof.
  intros H1 H2. destruct (nth_error (v_data v) i) as [y|] eqn:E; [|apply nth_error_None in E; lia].
  rewrite (read_ok st k v i y H1 E). cbn [obind]. unfold write, oget, oset; cbn [fst snd].
  rewrite H1. cbn [obind]. destruct (Nat.ltb_spec i (length (v_data v))); [|lia]. cbn [obind].
  assert (k < length st) by (apply nth_error_Some; congruence).
  destruct (Nat.ltb_spec k (length st)); [|lia]. unfold set_data, comb1. rewrite E. reflexivity.
Qed.

Lemma loop_values_ok f k : forall a vals st v,
  nth_error st k = Some v -> Forall (fun i => i < length (v_data v)) a ->
  loop_values f st (map (fun i => (k, i)) a) vals = Ok (set_data st k v (comb f (v_data v) a vals)).
Proof.
  induction a as [|i a IH]; intros vals st v H1 H2.
  - cbn. unfold set_data. rewrite upd_same; [reflexivity|]. destruct v; assumption.
  - destruct vals as [|x vals].
    + cbn. unfold set_data. rewrite upd_same; [reflexivity|]. destruct v; assumption.
    + inversion H2; subst. unfold loop_values. cbn [map combine ofold].
      rewrite step_ok with (v := v) by assumption. cbn [obind].
      specialize (IH vals (set_data st k v (comb1 f (v_data v) i x)) _ (set_data_get st k v _ H1)).
      unfold loop_values in IH. rewrite IH.
      * rewrite set_data_set. reflexivity.
      * cbn [v_data]. rewrite comb1_length. assumption.
Qed.

Lemma reads_ok st k v ids vals : nth_error st k = Some v -> pick (v_data v) ids = Some vals ->
  omapl (read st) (map (fun i => (k, i)) ids) = Ok vals.
Proof.
  intros H; revert vals; induction ids as [|i ids IH]; intros vals P; cbn [pick map omapl] in *.
  - inversion P; reflexivity.
  - destruct (nth_error (v_data v) i) as [x|] eqn:E; [|discriminate].
    destruct (pick (v_data v) ids) as [r|]; [|discriminate]. inversion P; subst.
    rewrite (read_ok st k v i x H E). cbn [obind]. rewrite (IH r eq_refl). reflexivity.
Qed.

Lemma loop_copy_ok f k j a b st v u vals :
  nth_error st k = Some v -> nth_error st j = Some u ->
  Forall (fun i => i < length (v_data v)) a -> pick (v_data u) b = Some vals ->
  loop_copy f st (map (fun i => (k, i)) a) (map (fun i => (j, i)) b) =
  Ok (set_data st k v (comb f (v_data v) a vals)).
Proof.
  intros H1 H2 H3 H4. unfold loop_copy. rewrite (reads_ok st j u b vals H2 H4). cbn [obind].
  apply loop_values_ok; assumption.
Qed.

Lemma loop_direct_ok f k j : k <> j -> forall a b st v u vals,
  nth_error st k = Some v -> nth_error st j = Some u ->
  Forall (fun i => i < length (v_data v)) a -> pick (v_data u) b = Some vals ->
  loop_direct f st (map (fun i => (k, i)) a) (map (fun i => (j, i)) b) =
  Ok (set_data st k v (comb f (v_data v) a vals)).
Proof.
  intros Hkj. induction a as [|i a IH]; intros b st v u vals H1 H2 H3 H4.
  - cbn. unfold set_data. rewrite upd_same; [reflexivity|]. destruct v; assumption.
  - destruct b as [|q b]; cbn [pick] in H4.
    + inversion H4; subst. cbn. unfold set_data. rewrite upd_same; [reflexivity|]. destruct v; assumption.
    + destruct (nth_error (v_data u) q) as [x|] eqn:E; [|discriminate].
      destruct (pick (v_data u) b) as [r|] eqn:P; [|discriminate]. inversion H4; subst.
      inversion H3; subst. unfold loop_direct. cbn [map combine ofold].
      rewrite (read_ok st j u q x H2 E). cbn [obind].
      pose proof (step_ok f st k v i x H1 ltac:(assumption)) as S. rewrite S. cbn [obind].
      specialize (IH b (set_data st k v (comb1 f (v_data v) i x)) _ u r (set_data_get st k v _ H1)).
      unfold loop_direct in IH. rewrite IH.
      * rewrite set_data_set. reflexivity.
      * unfold set_data. rewrite nth_error_upd_other by congruence. assumption.
      * cbn [v_data]. rewrite comb1_length. assumption.
      * exact P.
Qed.

(* ---- views taken from vectors ---- *)
Lemma to_idx_ids n ids l : omapl (fun i => to_idx_nat n i) ids = Ok l -> l = ids /\ Forall (fun i => i < n) ids.
Proof.
  intros H. apply omapl_Ok_inv in H. induction H as [|x y ids l Hxy H IH]; [auto|].
  apply to_idx_nat_Ok in Hxy. destruct Hxy as [-> Hx]. destruct IH as [-> IH]. auto.
Qed.

Lemma view_ids_points st k c ids w : view_ids st k c ids = Ok w ->
  points st k w ids /\ (c = false -> tracked k w) /\ w_dims w = [length ids].
Proof.
  unfold view_ids. intros H. apply obind_Ok in H. destruct H as (v & Hv & H). apply oget_Ok in Hv.
  apply obind_Ok in H. destruct H as (l & Hl & H). apply to_idx_ids in Hl. destruct Hl as [-> Hl].
  inversion H; subst w; clear H. split; [|split; [intros ->; split; reflexivity|reflexivity]].
  exists v. auto.
Qed.

Lemma view_ids_ok st k c ids v : nth_error st k = Some v -> Forall (fun i => i < v_size v) ids ->
  view_ids st k c ids = Ok (mk_view (PVec k) c [length ids] (map (fun i => (k, i)) ids)).
Proof.
  intros H1 H2. unfold view_ids, oget. rewrite H1. cbn [obind].
  replace (omapl (fun i => to_idx_nat (v_size v) i) ids) with (Ok ids); [reflexivity|].
  symmetry. rewrite (omapl_map _ _ _ (fun i => i)); [rewrite map_id; reflexivity|].
  intros x Hx. rewrite Forall_forall in H2. specialize (H2 x Hx).
  unfold to_idx_nat, check. destruct (Nat.ltb_spec x (v_size v)); [reflexivity|lia].
Qed.

Lemma map_positions (k : nat) (l : list (nat * nat)) (P : nat -> Prop) : (forall p, In p l -> fst p = k /\ P (snd p)) ->
  l = map (fun i => (k, i)) (map snd l) /\ Forall P (map snd l).
Proof.
  induction l as [|[a b] l IH]; intros H; [split; [reflexivity|constructor]|]. destruct (H _ (or_introl eq_refl)) as [H1 H2].
  simpl in H1, H2. subst a. destruct IH as [I1 I2]; [intros; apply H; simpl; auto|].
  simpl. split; [congruence|]. constructor; assumption.
Qed.

Lemma omapl_in (B C : Type) (f : B -> outcome C) l r y : omapl f l = Ok r -> In y r -> exists x, In x l /\ f x = Ok y.
Proof.
  intros H. apply omapl_Ok_inv in H. induction H as [|x z l r Hx H IH]; intros Hy; [destruct Hy|].
  destruct Hy as [<-|Hy]; [exists x; simpl; auto|]. destruct (IH Hy) as (x' & I1 & I2). exists x'; simpl; auto.
Qed.

Lemma points_in st k w ids p : points st k w ids -> In p (w_ptrs w) ->
  fst p = k /\ exists v, nth_error st k = Some v /\ snd p < length (v_data v).
Proof.
  intros (v & H1 & H2 & H3) Hp. rewrite H2 in Hp. apply in_map_iff in Hp. destruct Hp as (i & <- & Hi).
  split; [reflexivity|]. exists v. split; [assumption|]. rewrite Forall_forall in H3. apply H3; assumption.
Qed.

Lemma points_sub st k w ids l : points st k w ids -> (forall p, In p l -> In p (w_ptrs w)) ->
  exists v, nth_error st k = Some v /\ l = map (fun i => (k, i)) (map snd l) /\
            Forall (fun i => i < length (v_data v)) (map snd l).
Proof.
  intros H Hl. pose proof H as (v & Hv & _). exists v. split; [assumption|].
  apply map_positions. intros p Hp. destruct (points_in _ _ _ _ _ H (Hl p Hp)) as (E & v' & Hv' & Hb).
  split; [assumption|]. replace v with v' by congruence. assumption.
Qed.

Lemma view_view_ids_points st k w ids c l w' : points st k w ids -> view_view_ids w c l = Ok w' ->
  points st k w' (map snd (w_ptrs w')) /\ (c = false -> tracked k w -> tracked k w').
Proof.
  unfold view_view_ids. intros Hw H. apply obind_Ok in H. destruct H as (r & Hr & H).
  inversion H; subst w'; clear H. cbn [w_ptrs]. split.
  - eapply points_sub in Hw; [exact Hw|]. intros p Hp. eapply omapl_in in Hr; [|exact Hp].
    destruct Hr as (x & _ & Hx). apply obind_Ok in Hx. destruct Hx as (y & _ & Hx).
    apply oget_Ok in Hx. eapply nth_error_In; exact Hx.
  - intros -> [T1 T2]. split; [exact T1|]. cbn. exact T2.
Qed.

Lemma view_view_rng_points st k w ids ad c r w' : points st k w ids -> view_view_rng w ad c r = Ok w' ->
  points st k w' (map snd (w_ptrs w')).
Proof.
  unfold view_view_rng. intros Hw H. apply obind_Ok in H. destruct H as (l & _ & H).
  apply obind_Ok in H. destruct H as (ps & Hr & H). inversion H; subst w'; clear H. cbn [w_ptrs].
  eapply points_sub in Hw; [exact Hw|]. intros p Hp. eapply omapl_in in Hr; [|exact Hp].
  destruct Hr as (x & _ & Hx). apply oget_Ok in Hx. eapply nth_error_In; exact Hx.
Qed.

Lemma view_rng_points st k c r w v : nth_error st k = Some v ->
  (Z.of_nat (v_size v) <= max_ptrs)%Z -> sub_u64 (SRange r) ->
  view_rng st k c r = Ok w ->
  points st k w (map snd (w_ptrs w)) /\ (c = false -> tracked k w).
Proof.
  intros Hv Hm Hu H. unfold view_rng, oget in H. rewrite Hv in H. cbn [obind] in H.
  apply obind_Ok in H. destruct H as (l & Hl & H). inversion H; subst w; clear H. cbn [w_ptrs].
  split; [|intros ->; split; reflexivity]. exists v. split; [assumption|].
  apply map_positions. intros p Hp. apply in_map_iff in Hp. destruct Hp as (x & <- & Hx).
  split; [reflexivity|]. cbn [snd]. unfold bracket_access in Hl.
  apply obind_Ok in Hl. destruct Hl as (? & _ & Hl). apply obind_Ok in Hl. destruct Hl as (l' & Hl' & Hl).
  destruct (_ =? _)%Z; [|discriminate]. inversion Hl; subst l'.
  eapply rng_loop_safe; [exact Hm|exact Hu|exact Hl'|exact Hx].
Qed.

Lemma view_multi_points st k c subs w v : nth_error st k = Some v -> wf v ->
  Forall (fun d => (Z.of_nat d <= max_ptrs)%Z) (v_dims v) -> Forall sub_u64 subs ->
  view_multi st k c subs = Ok w ->
  points st k w (map snd (w_ptrs w)) /\ (c = false -> tracked k w).
Proof.
  intros Hv Hw Hm Hu H. unfold view_multi, oget in H. rewrite Hv in H. cbn [obind] in H.
  apply obind_Ok in H. destruct H as ([vd l] & Hl & H). inversion H; subst w; clear H. cbn [w_ptrs].
  split; [|intros ->; split; reflexivity]. exists v. split; [assumption|].
  apply map_positions. intros p Hp. apply in_map_iff in Hp. destruct Hp as (x & <- & Hx).
  split; [reflexivity|]. cbn [snd]. apply multi_access_safe in Hl; try assumption.
  rewrite Forall_forall in Hl. destruct Hw as [W _]. rewrite W. apply Hl; assumption.
Qed.

(* ---- assignment ---- *)
Lemma tracked_same k w u : tracked k w -> tracked k u -> same_view_view w u = true.
Proof. intros [P1 C1] [P2 C2]. unfold same_view_view. rewrite C1, C2, P1, P2. simpl. apply Nat.eqb_refl. Qed.
Lemma tracked_same_vec k w : tracked k w -> same_view_vec w k = true.
Proof. intros [P1 C1]. unfold same_view_vec. rewrite C1, P1. simpl. apply Nat.eqb_refl. Qed.

Lemma copy_or_direct (b : bool) f st k j v u a ids vals :
  nth_error st k = Some v -> nth_error st j = Some u ->
  Forall (fun i => i < length (v_data v)) a -> pick (v_data u) ids = Some vals ->
  (k = j -> b = true) ->
  (if b then loop_copy f st (map (fun i => (k, i)) a) (map (fun i => (j, i)) ids)
   else loop_direct f st (map (fun i => (k, i)) a) (map (fun i => (j, i)) ids)) =
  Ok (set_data st k v (comb f (v_data v) a vals)).
Proof.
  intros H1 H2 H3 H4 Hb. destruct b.
  - eapply loop_copy_ok; eassumption.
  - eapply loop_direct_ok; try eassumption. intros E; specialize (Hb E); discriminate.
Qed.

Lemma view_view_ok st k j w u a b v v2 :
  points st k w a -> points st j u b -> (k = j -> tracked k w /\ tracked k u) ->
  length a = length b -> nth_error st k = Some v -> nth_error st j = Some v2 ->
  exists vals r, pick (v_data v2) b = Some vals /\ stored (v_data v) a vals r /\
    assign_view_view st w u = Ok (set_data st k v r).
Proof.
  intros (v' & V1 & P1 & B1) (v2' & V2 & P2 & B2) T L E1 E2.
  assert (v' = v) by congruence. assert (v2' = v2) by congruence. subst v' v2'.
  destruct (proj1 (pick_some (v_data v2) b) B2) as [vals Hp].
  exists vals, (comb take_src (v_data v) a vals). split; [assumption|].
  split; [apply combined_stored, comb_spec|].
  unfold assign_view_view. rewrite P1, P2, !map_length, L, Nat.eqb_refl. cbn [check obind].
  eapply copy_or_direct; try eassumption. intros E. destruct (T E). eapply tracked_same; eassumption.
Qed.

Lemma view_vec_ok st k j w a v v2 :
  points st k w a -> (k = j -> tracked k w) ->
  nth_error st k = Some v -> nth_error st j = Some v2 -> length a = v_size v2 ->
  exists r, stored (v_data v) a (v_data v2) r /\
    assign_view_vec st w j = Ok (set_data st k v r).
Proof.
  intros (v' & V1 & P1 & B1) T E1 E2 L.
  assert (v' = v) by congruence. subst v'.
  exists (comb take_src (v_data v) a (v_data v2)).
  split; [apply combined_stored, comb_spec|].
  unfold assign_view_vec, vec_ptrs, oget. rewrite E2. cbn [obind]. rewrite P1, !map_length, L, seq_length, Nat.eqb_refl.
  cbn [check obind]. eapply copy_or_direct; try eassumption.
  - apply pick_all.
  - intros E. apply tracked_same_vec. subst j. auto.
Qed.

Lemma comb_all vals l0 : length vals = length l0 ->
  comb take_src l0 (seq 0 (length l0)) vals = vals.
Proof.
  intros L. destruct (comb_spec take_src (seq 0 (length l0)) vals l0) as [CL CN].
  apply list_eq_nth_error. intros i. rewrite CN.
  destruct (nth_error l0 i) as [y|] eqn:E.
  - assert (Hi : i < length l0) by (apply nth_error_Some; congruence).
    assert (G : forall n s (vs : list A), length vs = n -> s <= i < s + n ->
       match nth_error vs (i - s) with Some x => paired i (seq s n) vs = [x] | None => False end).
    { clear. induction n as [|n IH]; intros s vs Hv Hs; [lia|].
      destruct vs as [|x vs]; [discriminate|]. simpl in Hv. unfold paired. cbn [seq combine filter].
      destruct (Nat.eqb_spec s i) as [->|Hn].
      - rewrite Nat.sub_diag. cbn [nth_error map snd].
        replace (filter _ _) with (@nil (nat * A)); [reflexivity|].
        symmetry. assert (F : forall n s (vs : list A), i < s -> filter (fun '(j, _) => j =? i) (combine (seq s n) vs) = []).
        { clear. induction n as [|n IH]; intros s vs H; [reflexivity|]. destruct vs as [|x vs]; [reflexivity|].
          cbn [seq combine filter]. destruct (Nat.eqb_spec s i); [lia|]. apply IH; lia. }
        apply F; lia.
      - replace (i - s) with (S (i - S s)) by lia. cbn [nth_error].
        apply (IH (S s) vs); lia. }
    specialize (G (length l0) 0 vals L ltac:(lia)). rewrite Nat.sub_0_r in G.
    destruct (nth_error vals i) as [x|]; [|destruct G]. rewrite G. reflexivity.
  - cbn [option_map]. symmetry. apply nth_error_None. apply nth_error_None in E. lia.
Qed.

Lemma vec_view_ok (dflt : A) st k j u b v v2 :
  points st j u b -> (k = j -> tracked k u) ->
  nth_error st k = Some v -> nth_error st j = Some v2 ->
  exists vals, pick (v_data v2) b = Some vals /\
    assign_vec_view dflt st k u = Ok (upd st k (mk_vec (w_dims u) vals)).
Proof.
  intros (v2' & V2 & P2 & B2) T E1 E2. assert (v2' = v2) by congruence. subst v2'.
  destruct (proj1 (pick_some (v_data v2) b) B2) as [vals Hp]. exists vals. split; [assumption|].
  unfold assign_vec_view, oget. rewrite E1. cbn [obind].
  assert (Hk : k < length st) by (apply nth_error_Some; congruence).
  destruct (same_view_vec u k) eqn:Es.
  - rewrite P2, (reads_ok st j v2 b vals E2 Hp). cbn [obind]. unfold oset.
    destruct (Nat.ltb_spec k (length st)); [reflexivity|lia].
  - assert (Hkj : k <> j).
    { intros E. rewrite (tracked_same_vec _ _ (T E)) in Es. discriminate. }
    rewrite P2, map_length.
    replace (existsb (fun p : nat * nat => fst p =? k) (map (fun i => (j, i)) b)) with false.
    2: { symmetry. rewrite <- not_true_iff_false, existsb_exists. intros (p & Hp1 & Hp2).
         apply in_map_iff in Hp1. destruct Hp1 as (i & <- & _). cbn [fst] in Hp2.
         apply Nat.eqb_eq in Hp2. congruence. }
    rewrite andb_false_r. unfold oset. destruct (Nat.ltb_spec k (length st)); [|lia]. cbn [obind].
    set (l0 := firstn (length b) (v_data v) ++ repeat dflt (length b - v_size v)).
    assert (L0 : length l0 = length b).
    { unfold l0, v_size. rewrite app_length, firstn_length, repeat_length. lia. }
    set (st1 := upd st k (mk_vec (w_dims u) l0)).
    assert (N1 : nth_error st1 k = Some (mk_vec (w_dims u) l0)) by (apply nth_error_upd_same; assumption).
    assert (N2 : nth_error st1 j = Some v2).
    { unfold st1. rewrite nth_error_upd_other by congruence. assumption. }
    rewrite (loop_direct_ok take_src k j Hkj (seq 0 (length b)) b st1 _ v2 vals N1 N2).
    + unfold set_data, st1. cbn [v_dims v_data]. rewrite upd_upd, <- L0.
      rewrite comb_all; [reflexivity|]. rewrite L0. eapply pick_length; exact Hp.
    + cbn [v_data]. apply Forall_forall. intros i Hi. apply in_seq in Hi. lia.
    + assumption.
Qed.

Lemma view_scalar_ok k st w a v q x :
  points st k w a -> nth_error st k = Some v -> read st q = Ok x ->
  exists r, stored (v_data v) a (repeat x (length a)) r /\
    assign_view_scalar st w q = Ok (set_data st k v r).
Proof.
  intros (v' & V1 & P1 & B1) E Hq. assert (v' = v) by congruence. subst v'. clear V1.
  exists (comb take_src (v_data v) a (repeat x (length a))).
  split; [apply combined_stored, comb_spec|]. unfold assign_view_scalar. rewrite P1. clear P1.
  revert st v E Hq B1. induction a as [|i a IH]; intros st v E Hq B1.
  - cbn. unfold set_data. rewrite upd_same; [reflexivity|]. destruct v; assumption.
  - inversion B1; subst. cbn [map ofold length repeat]. rewrite Hq. cbn [obind].
    destruct (nth_error (v_data v) i) as [y|] eqn:Ey; [|apply nth_error_None in Ey; lia].
    pose proof (step_ok take_src st k v i x E ltac:(assumption)) as S.
    rewrite (read_ok st k v i y E Ey) in S. cbn [obind] in S. unfold take_src at 1 in S. rewrite S. cbn [obind].
    rewrite (IH (set_data st k v (comb1 take_src (v_data v) i x)) _ (set_data_get st k v _ E)).
    + rewrite set_data_set. reflexivity.
    + (* the scalar still has the value x *)
      clear IH. destruct q as [qk qi]. unfold read in *; cbn [fst snd] in *.
      apply obind_Ok in Hq. destruct Hq as (u & Hu & Hx). apply oget_Ok in Hu. apply oget_Ok in Hx.
      unfold set_data, oget. destruct (Nat.eq_dec qk k) as [->|Hne].
      * rewrite nth_error_upd_same by (apply nth_error_Some; congruence). cbn [obind v_data].
        rewrite comb1_nth. assert (u = v) by congruence. subst u. rewrite Hx. destruct (i =? qi); reflexivity.
      * rewrite nth_error_upd_other by assumption. rewrite Hu. cbn [obind]. rewrite Hx. reflexivity.
    + cbn [v_data]. rewrite comb1_length. assumption.
Qed.

(* ---- compound assignment ---- *)
Lemma dims_eqb_refl d : dims_eqb d d = true.
Proof. unfold dims_eqb. destruct (list_eq_dec Nat.eq_dec d d); congruence. Qed.

Lemma op_view_view_ok f st k j w u a b v v2 :
  points st k w a -> points st j u b -> (k = j -> tracked k w /\ tracked k u) ->
  w_dims w = w_dims u -> nth_error st k = Some v -> nth_error st j = Some v2 ->
  exists vals r, pick (v_data v2) b = Some vals /\ combined f (v_data v) a vals r /\
    op_view_view f st w u = Ok (set_data st k v r).
Proof.
  intros (v' & V1 & P1 & B1) (v2' & V2 & P2 & B2) T D E1 E2.
  assert (v' = v) by congruence. assert (v2' = v2) by congruence. subst v' v2'.
  destruct (proj1 (pick_some (v_data v2) b) B2) as [vals Hp].
  exists vals, (comb f (v_data v) a vals). split; [assumption|]. split; [apply comb_spec|].
  unfold op_view_view. rewrite D, dims_eqb_refl, P1, P2. cbn [check obind].
  eapply copy_or_direct; try eassumption. intros E. destruct (T E). eapply tracked_same; eassumption.
Qed.

Lemma op_view_vec_ok f st k j w a v v2 :
  points st k w a -> (k = j -> tracked k w) ->
  nth_error st k = Some v -> nth_error st j = Some v2 -> w_dims w = v_dims v2 ->
  exists r, combined f (v_data v) a (v_data v2) r /\
    op_view_vec f st w j = Ok (set_data st k v r).
Proof.
  intros (v' & V1 & P1 & B1) T E1 E2 D. assert (v' = v) by congruence. subst v'.
  exists (comb f (v_data v) a (v_data v2)). split; [apply comb_spec|].
  unfold op_view_vec, vec_ptrs, oget. rewrite E2. cbn [obind]. rewrite D, dims_eqb_refl, P1. cbn [check obind].
  eapply copy_or_direct; try eassumption.
  - apply pick_all.
  - intros E. apply tracked_same_vec. subst j. auto.
Qed.

Lemma op_vec_view_ok f st k j u b v v2 :
  points st j u b -> (k = j -> tracked k u) ->
  nth_error st k = Some v -> nth_error st j = Some v2 -> v_dims v = w_dims u ->
  exists vals r, pick (v_data v2) b = Some vals /\
    combined f (v_data v) (seq 0 (v_size v)) vals r /\
    op_vec_view f st k u = Ok (set_data st k v r).
Proof.
  intros (v2' & V2 & P2 & B2) T E1 E2 D. assert (v2' = v2) by congruence. subst v2'.
  destruct (proj1 (pick_some (v_data v2) b) B2) as [vals Hp].
  exists vals, (comb f (v_data v) (seq 0 (v_size v)) vals). split; [assumption|]. split; [apply comb_spec|].
  unfold op_vec_view, vec_ptrs, oget. rewrite E1. cbn [obind]. rewrite <- D, dims_eqb_refl, P2. cbn [check obind].
  eapply copy_or_direct; try eassumption.
  - apply Forall_forall. intros i Hi. apply in_seq in Hi. unfold v_size in Hi. lia.
  - intros E. apply tracked_same_vec. auto.
Qed.

(* v op= v *)
Lemma comb_seq_other f : forall n s (vs d : list A) i, i < s ->
  nth_error (comb f d (seq s n) vs) i = nth_error d i.
Proof.
  intros n s vs d i H. destruct (comb_spec f (seq s n) vs d) as [_ N]. rewrite N.
  assert (F : forall n s (vs : list A), i < s -> filter (fun '(j, _) => j =? i) (combine (seq s n) vs) = []).
  { clear. induction n as [|n IH]; intros s vs H; [reflexivity|]. destruct vs as [|x vs]; [reflexivity|].
    cbn [seq combine filter]. destruct (Nat.eqb_spec s i); [lia|]. apply IH; lia. }
  unfold paired. rewrite F by assumption. destruct (nth_error d i); reflexivity.
Qed.

Lemma skipn_upd (l : list A) s y : skipn (S s) (upd l s y) = skipn (S s) l.
Proof.
  revert s; induction l as [|b l IH]; intros [|s]; try reflexivity.
  exact (IH s).
Qed.

Lemma loop_self_ok f k : forall n s st v vals,
  nth_error st k = Some v -> s + n = length (v_data v) -> vals = skipn s (v_data v) ->
  loop_direct f st (map (fun i => (k, i)) (seq s n)) (map (fun i => (k, i)) (seq s n)) =
  Ok (set_data st k v (comb f (v_data v) (seq s n) vals)).
Proof.
  induction n as [|n IH]; intros s st v vals H1 H2 H3.
  - cbn. unfold set_data. rewrite upd_same; [reflexivity|]. destruct v; assumption.
  - destruct (nth_error (v_data v) s) as [x|] eqn:E; [|apply nth_error_None in E; lia].
    assert (Ev : vals = x :: skipn (S s) (v_data v)).
    { subst vals. clear -E. revert s E. induction (v_data v) as [|y l IH]; intros [|s] E; simpl in *; try discriminate.
      - congruence.
      - apply IH in E. rewrite E. destruct l; reflexivity. }
    rewrite Ev. unfold loop_direct. cbn [seq map combine ofold].
    rewrite (read_ok st k v s x H1 E). cbn [obind].
    pose proof (step_ok f st k v s x H1 ltac:(lia)) as S0.
    rewrite (read_ok st k v s x H1 E) in S0. cbn [obind] in S0. rewrite S0. cbn [obind].
    specialize (IH (S s) (set_data st k v (comb1 f (v_data v) s x)) _ (skipn (S s) (v_data v)) (set_data_get st k v _ H1)).
    unfold loop_direct in IH. rewrite IH.
    + rewrite set_data_set. reflexivity.
    + cbn [v_data]. rewrite comb1_length. lia.
    + cbn [v_data]. unfold comb1. rewrite E. symmetry. apply skipn_upd.
Qed.

Lemma op_vec_vec_ok f st k j v v2 :
  nth_error st k = Some v -> nth_error st j = Some v2 -> v_dims v = v_dims v2 ->
  exists r, combined f (v_data v) (seq 0 (v_size v)) (v_data v2) r /\
    op_vec_vec f st k j = Ok (set_data st k v r).
Proof.
  intros E1 E2 D. exists (comb f (v_data v) (seq 0 (v_size v)) (v_data v2)). split; [apply comb_spec|].
  unfold op_vec_vec, vec_ptrs, oget. rewrite E1, E2. cbn [obind]. rewrite <- D, dims_eqb_refl. cbn [check obind].
  destruct (Nat.eq_dec k j) as [->|Hne].
  - assert (v = v2) by congruence. subst v2. apply loop_self_ok; [assumption|reflexivity|reflexivity].
  - eapply loop_direct_ok; try eassumption.
    + apply Forall_forall. intros i Hi. apply in_seq in Hi. unfold v_size in Hi. lia.
    + apply pick_all.
Qed.

Lemma op_view_scalar_ok f st k w a v x :
  points st k w a -> nth_error st k = Some v ->
  exists r, combined f (v_data v) a (repeat x (length a)) r /\
    op_view_scalar f st w x = Ok (set_data st k v r).
Proof.
  intros (v' & V1 & P1 & B1) E. assert (v' = v) by congruence. subst v'. clear V1.
  exists (comb f (v_data v) a (repeat x (length a))). split; [apply comb_spec|].
  unfold op_view_scalar. rewrite P1. clear P1.
  revert st v E B1. induction a as [|i a IH]; intros st v E B1.
  - cbn. unfold set_data. rewrite upd_same; [reflexivity|]. destruct v; assumption.
  - inversion B1; subst. cbn [map ofold length repeat].
    rewrite (step_ok f st k v i x E) by assumption. cbn [obind].
    rewrite (IH (set_data st k v (comb1 f (v_data v) i x)) _ (set_data_get st k v _ E)).
    + rewrite set_data_set. reflexivity.
    + cbn [v_data]. rewrite comb1_length. assumption.
Qed.

(* scalar operand that is not an element of the vector *)
Lemma op_vec_scalar_ok f st k v s x :
  nth_error st k = Some v ->
  match s with SVal y => y = x | SElem q => fst q <> k /\ read st q = Ok x end ->
  op_vec_scalar f st k s = Ok (set_data st k v (map (fun y => f y x) (v_data v))).
Proof.
  intros E Hs. unfold op_vec_scalar, vec_ptrs, oget. rewrite E. cbn [obind]. unfold v_size.
  assert (G : forall n pre st v, nth_error st k = Some v ->
    (match s with SVal y => y = x | SElem q => fst q <> k /\ read st q = Ok x end) ->
    forall rest, v_data v = pre ++ rest -> length rest = n ->
    ofold (fun st p => y <- read st p ;;
       x0 <- match s with SVal x => Ok x | SElem q => read st q end ;; write st p (f y x0))
      (map (fun i => (k, i)) (seq (length pre) n)) st =
    Ok (set_data st k v (pre ++ map (fun y => f y x) rest))).
  { clear E Hs st v. induction n as [|n IH]; intros pre st v E Hs rest Hd Hl.
    - destruct rest; [|discriminate]. cbn. unfold set_data. rewrite upd_same; [reflexivity|].
      rewrite app_nil_r in *. destruct v as [vd vl]; cbn in *. congruence.
    - destruct rest as [|y rest]; [discriminate|]. cbn [seq map ofold].
      assert (Ey : nth_error (v_data v) (length pre) = Some y) by (rewrite Hd; apply nth_error_mid).
      rewrite (read_ok st k v _ y E Ey). cbn [obind].
      replace (match s with SVal x => Ok x | SElem q => read st q end) with (Ok x)
        by (destruct s; [congruence|destruct Hs; congruence]). cbn [obind].
      pose proof (step_ok f st k v (length pre) x E ltac:(apply nth_error_Some; congruence)) as S0.
      rewrite (read_ok st k v _ y E Ey) in S0. cbn [obind] in S0. rewrite S0. cbn [obind].
      assert (Ec : comb1 f (v_data v) (length pre) x = (pre ++ [f y x]) ++ rest).
      { unfold comb1. rewrite Ey, Hd, upd_last, <- app_assoc. reflexivity. }
      rewrite Ec.
      replace (S (length pre)) with (length (pre ++ [f y x])) by (rewrite app_length; simpl; lia).
      rewrite (IH (pre ++ [f y x]) (set_data st k v ((pre ++ [f y x]) ++ rest)) _ (set_data_get st k v _ E)) with (rest := rest).
      + rewrite set_data_set. rewrite <- app_assoc. reflexivity.
      + destruct s as [z|[qk qi]]; [assumption|]. cbn [fst] in *. destruct Hs as [Hne Hq].
        split; [assumption|]. unfold read, set_data, oget in *; cbn [fst snd] in *.
        rewrite nth_error_upd_other by assumption. assumption.
      + reflexivity.
      + simpl in Hl. lia. }
  apply (G (length (v_data v)) [] st v E Hs (v_data v)); reflexivity.
Qed.

Lemma points_positions st k w ids : points st k w ids -> ids = positions w.
Proof.
  intros (v & _ & P & _). unfold positions. rewrite P, map_map. cbn [snd]. rewrite map_id. reflexivity.
Qed.

Lemma taken_points st k t w : taken st k t w ->
  points st k w (positions w) /\ (t = true -> tracked k w).
Proof.
  induction 1 as [c ids w H|c r w v Hv Hm Hu H|c subs w v Hv Hw Hm Hu H|t w c ids w' T [I1 I2] H|t w ad c r w' T [I1 I2] H].
  - apply view_ids_points in H. destruct H as (H1 & H2 & _).
    rewrite <- (points_positions _ _ _ _ H1). split; [assumption|].
    intros E. apply H2. destruct c; [discriminate|reflexivity].
  - eapply view_rng_points in H; try eassumption. destruct H as (H1 & H2). split; [exact H1|].
    intros E. apply H2. destruct c; [discriminate|reflexivity].
  - eapply view_multi_points in H; try eassumption. destruct H as (H1 & H2). split; [exact H1|].
    intros E. apply H2. destruct c; [discriminate|reflexivity].
  - eapply view_view_ids_points in H; try eassumption. destruct H as (H1 & H2). split; [exact H1|].
    intros E. apply andb_true_iff in E. destruct E as [E1 E2]. apply H2; [destruct c; [discriminate|reflexivity]|auto].
  - eapply view_view_rng_points in H; try eassumption. split; [exact H|discriminate].
Qed.

Lemma paired_notin i : forall a (vals : list A), ~ In i a -> paired i a vals = [].
Proof.
  induction a as [|j a IH]; intros vals H; [reflexivity|]. destruct vals as [|x vals]; [reflexivity|].
  unfold paired. cbn [combine filter]. destruct (Nat.eqb_spec j i) as [->|Hn]; [simpl in H; tauto|].
  apply IH. simpl in H. tauto.
Qed.
Lemma paired_nodup i : forall a (vals : list A) n x, NoDup a -> nth_error a n = Some i -> nth_error vals n = Some x ->
  paired i a vals = [x].
Proof.
  induction a as [|j a IH]; intros vals n x N Hi Hx; [destruct n; discriminate|].
  destruct vals as [|y vals]; [destruct n; discriminate|]. inversion N; subst.
  unfold paired. cbn [combine filter]. destruct n as [|n]; cbn [nth_error] in *.
  - injection Hi as ->. injection Hx as ->. rewrite Nat.eqb_refl. cbn [map snd].
    fold (paired i a vals). rewrite paired_notin by assumption. reflexivity.
  - destruct (Nat.eqb_spec j i) as [->|Hn].
    + apply nth_error_In in Hi. contradiction.
    + eapply IH; eassumption.
Qed.

Lemma combined_distinct f (old : list A) a vals r :
  combined f old a vals r -> NoDup a -> length a = length vals -> Forall (fun i => i < length old) a ->
  (forall n i x, nth_error a n = Some i -> nth_error vals n = Some x ->
     exists y, nth_error old i = Some y /\ nth_error r i = Some (f y x)) /\
  forall i, ~ In i a -> nth_error r i = nth_error old i.
Proof.
  intros [_ C] N L F. split.
  - intros n i x H1 H2. assert (Hi : i < length old).
    { rewrite Forall_forall in F. apply F. eapply nth_error_In; eassumption. }
    destruct (nth_error old i) as [y|] eqn:E; [|apply nth_error_None in E; lia].
    exists y. split; [reflexivity|]. rewrite C, E, (paired_nodup i a vals n x) by assumption. reflexivity.
  - intros i H. rewrite C, paired_notin by assumption. destruct (nth_error old i); reflexivity.
Qed.

Lemma stored_combined (d : list A) a vals r : stored d a vals r -> combined take_src d a vals r.
Proof.
  intros [L N]. split; [assumption|]. intros i. rewrite N.
  destruct (nth_error d i) as [y|]; cbn [option_map]; [|reflexivity]. rewrite fold_take.
  destruct (last_opt _); reflexivity.
Qed.

Lemma stored_distinct (old : list A) a vals r :
  stored old a vals r -> NoDup a -> length a = length vals -> Forall (fun i => i < length old) a ->
  pick r a = Some vals /\ forall i, ~ In i a -> nth_error r i = nth_error old i.
Proof.
  intros S N L F. apply stored_combined in S. destruct (combined_distinct _ _ _ _ _ S N L F) as [D1 D2].
  split; [|exact D2]. clear -D1 L. revert vals L D1. induction a as [|i a IH]; intros [|x vals] L D1; try discriminate.
  - reflexivity.
  - cbn [pick]. destruct (D1 0 i x eq_refl eq_refl) as (y & _ & ->). rewrite (IH vals).
    + reflexivity.
    + simpl in L. lia.
    + intros n j z H1 H2. exact (D1 (S n) j z H1 H2).
Qed.

End Proofs.
